(** Vector areas, closed surfaces and sums over the sides of a cell. *)
From Coq Require Import Reals Permutation Lra.
From Verif Require Import Base Loop Defs Factory Cache Cache_spec Cache_proofs Cache_proofs2 Cache_proofs4 Cache_proofs5 Cache_proofs6 Props_Cache Point Geometry Geometry_spec Geometry_proofs
  Props_Polygon Props_Polygon3D Polyhedron_proofs Props_Polyhedron Props_InPolygon MeshGeom MeshGeom_spec MeshGeom_proofs MeshGeom_proofs2.
Set Implicit Arguments.
Local Open Scope R_scope.

(** ** vector areas *)
Lemma det_sum o w l : sum_of (fun e => det3 o (fst e) (snd e) w) (edges l) = 2 * (dot3 (varea l) w - dot3 (varea l) o).
Proof.
  assert (E : forall e : point * point, det3 o (fst e) (snd e) w = 2 * (p0 w - p0 o) * vtri0 o e + (2 * (p1 w - p1 o) * vtri1 o e + 2 * (p2 w - p2 o) * vtri2 o e)) by (intros [a b]; unfold det3, vtri0, vtri1, vtri2; cbn [fst snd p0 p1 p2]; field).
  rewrite (@sum_ext _ _ _ _ (fun e _ => E e)). rewrite !sum_plus, !sum_scale. assert (V := sum_vtri o l). unfold dot3. rewrite <- V. unfold P3. cbn [p0 p1 p2]. ring.
Qed.
Lemma tris_sum o l : (1 <= length l)%nat -> sum_of (tdet o) (tris l) = 2 * (dot3 (varea l) (mean l) - dot3 (varea l) o).
Proof.
  intros L. destruct (Nat.eq_dec (length l) 3) as [E|E].
  - destruct (tri_list _ E) as (a & b & c & ->). unfold tris, sum_of, varea, mean, dot3, sum_of, tdet, det3. cbn [map rsum edges steps fst snd p0 p1 p2 length INR]. field.
  - rewrite tris_fan by auto. rewrite sum_map. cbn [tdet]. apply det_sum.
Qed.
Lemma varea_rev l : varea (rev l) = popp (varea l).
Proof.
  unfold varea, popp. cbn [pd p0 p1 p2]. assert (Q : forall f : point * point -> R, (forall a b, f (b, a) = - f (a, b)) -> sum_of f (edges (rev l)) = - sum_of f (edges l)).
  { intros f Hf. rewrite (sum_perm _ (edges_rev l)), sum_map. rewrite (@sum_ext _ _ (fun e => (-1) * f e)) by (intros [a b] _; unfold swap; cbn [fst snd]; rewrite Hf; ring). rewrite sum_scale. ring. }
  f_equal; apply Q; intros a b; cbn [fst snd]; field.
Qed.
(** the computed centroid of a planar face lies in its plane: varea . C = varea . mean *)
Lemma flat_centroid n l A C N : (3 <= length l)%nat -> all_dim 3 l -> dot3 n n <> 0 -> planar n l -> polygon 3 3 l = Ok (A, C, N) ->
  dot3 (varea l) C = dot3 (varea l) (mean l).
Proof.
  intros L D Hn HP E. destruct (Nat.eq_dec (length l) 3) as [E3|E3].
  - destruct (tri_list _ E3) as (a & b & c & ->). rewrite polygon3_tri in E by (apply D; simpl; auto). injection E as _ <- _. auto.
  - destruct (c48_space_normal_is_vector_area L D) as (A' & C' & E' & Len). rewrite E in E'. injection E' as <- _ _. rewrite polygon3 in E by (auto; lia). injection E as <- <- _.
    set (S := sum_of (alen (mean l)) (edges l)) in *. destruct (Req_EM_T S 0) as [Z|NZ].
    + rewrite Z in Len. assert (L0 : length3 (varea l) = 0) by (assert (H := @length3_nonneg (varea l)); lra). assert (Q := length3_sq (varea l)). rewrite L0 in Q. 
      assert (p0 (varea l) = 0 /\ p1 (varea l) = 0 /\ p2 (varea l) = 0) as (Z0 & Z1 & Z2). { unfold dot3 in Q. set (x := p0 _) in *. set (y := p1 _) in *. set (z := p2 _) in *. clearbody x y z. repeat split; nra. }
      unfold dot3. rewrite Z0, Z1, Z2. ring.
    + rewrite (@varea_k n l Hn L HP). set (k := sum_of (kk n (mean l)) (edges l)).
      assert (Hl : forall a, In a l -> dot3 n a = dot3 n (mean l)). { intros a Ha. symmetry. apply dot3_mean; [lia|]. intros b Hb. apply HP; auto. }
      assert (EQ : dot3 n (diveq (P3 (sum_of (mom3 p0 (mean l)) (edges l)) (sum_of (mom3 p1 (mean l)) (edges l)) (sum_of (mom3 p2 (mean l)) (edges l))) S) = dot3 n (mean l)).
      { unfold diveq, dot3 at 1, P3. cbn [pd pmap p0 p1 p2].
        assert (F : p0 n * sum_of (mom3 p0 (mean l)) (edges l) + (p1 n * sum_of (mom3 p1 (mean l)) (edges l) + p2 n * sum_of (mom3 p2 (mean l)) (edges l)) = dot3 n (mean l) * S).
        { unfold S. rewrite <- !sum_scale, <- !sum_plus. apply sum_ext. intros [a b] He. apply edges_In in He as [Ha Hb]. apply Hl in Ha, Hb. unfold mom3. cbn [fst snd] in *.
          transitivity (alen (mean l) (a, b) * (dot3 n a + dot3 n b + dot3 n (mean l)) / 3); [unfold dot3; field|]. rewrite Ha, Hb. field. }
        apply Rmult_eq_reg_r with S; auto. rewrite <- F. field. auto. }
      unfold dot3 in EQ |- *. cbn [P3 p0 p1 p2]. transitivity (k * (p0 n * p0 (mean l) + p1 n * p1 (mean l) + p2 n * p2 (mean l))); [rewrite <- EQ|]; ring.
Qed.
(** edges that run the same way round: same vector area, same mean *)
Lemma varea_perm l l' : Permutation (edges l) (edges l') -> varea l = varea l'.
Proof. intros P. unfold varea. rewrite !(fun f => sum_perm f P). auto. Qed.
Lemma mean_perm l l' : Permutation l l' -> mean l = mean l'.
Proof. intros P. unfold mean. rewrite !(fun f => sum_perm f P), (Permutation_length P). auto. Qed.
Lemma edges_perm_list A (l l' : list A) : Permutation (edges l) (edges l') -> Permutation l l'.
Proof. intros P. rewrite <- (map_fst_edges l), <- (map_fst_edges l'). apply Permutation_map. auto. Qed.
Lemma tris_perm o l l' : (1 <= length l)%nat -> Permutation (edges l) (edges l') -> sum_of (tdet o) (tris l) = sum_of (tdet o) (tris l').
Proof.
  intros L P. assert (P' := edges_perm_list _ _ P). assert (Q := Permutation_length P'). rewrite !tris_sum by lia. rewrite (varea_perm _ _ P), (mean_perm P'). auto.
Qed.
Lemma volume_sum o faces : volume_from o faces = sum_of (fun f => sum_of (tdet o) (tris f)) faces / 6.
Proof. unfold volume_from, all_tris. rewrite sum_flat. auto. Qed.

(** ** picking the positions of a list *)
Lemma idxs_filter A (p : A -> bool) P : Forall2 (fun i x => nth_error P i = Some x) (idxs p P) (filter p P).
Proof.
  induction P as [|x P IH] using rev_ind; [constructor|]. rewrite idxs_snoc, filter_app. cbn [filter]. apply Forall2_app.
  - clear -IH. induction IH as [|i y l l' E F IH']; constructor; auto. rewrite nth_error_app1; auto. apply nth_error_lt in E. auto.
  - destruct (p x); constructor; auto. rewrite nth_error_app2, Nat.sub_diag by auto. reflexivity.
Qed.
Lemma mapM_Forall2 A B C (R : A -> B -> Prop) (f : A -> outcome C) (h : B -> C) l l' : Forall2 R l l' -> (forall a b, In b l' -> R a b -> f a = Ok (h b)) -> mapM f l = Ok (map h l').
Proof.
  induction 1 as [|a b l l' Hab F IH]; intros H; auto. simpl. rewrite (H a b) by (simpl; auto). simpl. rewrite IH; auto. intros a' b' I. apply H. simpl. auto.
Qed.
Lemma filter_flat A B (p : B -> bool) (g : A -> list B) l : filter p (flat_map g l) = flat_map (fun a => filter p (g a)) l.
Proof. induction l; simpl; auto. rewrite filter_app. congruence. Qed.
Lemma flat_single A B (g : A -> list B) (p : A -> bool) l a : NoDup l -> In a l -> (forall b, In b l -> p b = true <-> b = a) -> flat_map (fun b => if p b then g b else []) l = g a.
Proof.
  induction l as [|x l IH]; intros ND I H; [destruct I|]. apply NoDup_cons_iff in ND as [N1 N2]. simpl. destruct (p x) eqn:E.
  - apply H in E; [|simpl; auto]. subst x. assert (Z : flat_map (fun b => if p b then g b else []) l = []); [|rewrite Z; apply app_nil_r].
    assert (K : forall b, In b l -> p b = false). { intros b Hb. destruct (p b) eqn:Eb; auto. apply H in Eb; [|simpl; auto]. subst; tauto. }
    clear -K. induction l; simpl; auto. rewrite K by (simpl; auto). apply IHl. intros; apply K; simpl; auto.
  - destruct I as [->|I]; [assert (p a = true) by (apply H; simpl; auto); congruence|]. simpl. apply IH; auto. intros b Hb. apply H. simpl; auto.
Qed.
Lemma cell_trips t sh c : numbered t -> (c < ncells t)%nat -> filter (fun x => tcell x =? c)%nat (trips t sh) = trips_of sh c.
Proof.
  intros N Hc. unfold trips. rewrite filter_flat. rewrite <- (@flat_single _ _ (trips_of sh) (fun a => a =? c)%nat (cells_all t) c).
  - apply flat_map_ext. intros a. destruct (Nat.eqb_spec a c) as [->|E].
    + apply filter_true. intros [[c' fd] ed] Hx. unfold trips_of in Hx. apply in_flat_map in Hx as (fd' & _ & Hx). apply in_map_iff in Hx as (ed' & Ex & _). injection Ex as <- _ _. apply Nat.eqb_refl.
    + apply filter_false. intros [[c' fd] ed] Hx. unfold trips_of in Hx. apply in_flat_map in Hx as (fd' & _ & Hx). apply in_map_iff in Hx as (ed' & Ex & _). injection Ex as <- _ _. apply Nat.eqb_neq. auto.
  - apply cells_all_NoDup; auto.
  - apply cells_all_lt; auto.
  - intros b _. apply Nat.eqb_eq.
Qed.

Section O.
Variables (t : topo) (sh : shape) (fl : flags) (M : gmesh) (fn cv : nat -> list nat) (X : coordinates) (xs : list coordinates) (g : geo).
Hypothesis G : geom_mesh t sh fl M fn cv.
Hypothesis O : oriented t sh fn cv.
Hypothesis HX : coords_ok t X.
Lemma face_geom3 f : (f < nfaces t)%nat -> tp_mdim t = 3%nat -> exists A C nn, polygon 3 3 (at_nodes X (fn f)) = Ok (A, C, varea (at_nodes X (fn f))) /\
  compute_face_geometry M X f = Ok (A, C, nn) /\ pd C = 3%nat.
Proof.
  intros Hf D. destruct (or_face3 O D Hf) as [L _]. destruct (@face_geom_ok t sh fl M fn cv X G HX f Hf (fun _ => L)) as (A & C & n0 & n1 & E & PC & _).
  assert (E0 := E). unfold compute_face_geometry in E. rewrite (zeros G) in E. cbn [bind] in E. rewrite (gm_mdim G), D in E. rewrite (@face_coords t sh fl M fn cv X G HX f Hf) in E. cbn [bind] in E.
  destruct (@c48_space_normal_is_vector_area (at_nodes X (fn f))) as (A' & C' & E' & _); [unfold at_nodes; rewrite map_length; auto|rewrite <- D; apply (@face_dim t sh fl M fn cv X G HX f Hf)|].
  rewrite (gq_sdim G), D, E' in E. cbn [bind fst snd] in *. destruct (set_normals M f (varea (at_nodes X (fn f))) (Pt 3 0 0 0) (Pt 3 0 0 0)); try discriminate. cbn [bind] in *.
  injection E as -> -> _. exists A, C, (n0, n1). split; auto. split; auto. rewrite D in PC. auto.
Qed.
End O.
