(** The 2D generator makes the block of the grid it is asked for. *)
From Coq Require Import Reals Permutation Lra.
From Verif Require Import Base Loop MeshSet_proofs RegularMesh RegularMesh_spec RegularMesh_proofs RegularMesh_proofs2 RegularMesh_proofs3 RegularMesh_proofs4.
Set Implicit Arguments.

(** ** edges without direction *)
Lemma und_cases p q : undirected [p; q] = [p; q] \/ undirected [p; q] = [q; p].
Proof. destruct p as ((x, y), z), q as ((x', y'), z'). cbn [undirected]. destruct (x + y + z <? x' + y' + z'); auto. Qed.
Lemma und_inj p q p' q' : undirected [p; q] = undirected [p'; q'] -> p = p' /\ q = q' \/ p = q' /\ q = p'.
Proof.
  intros E. destruct (und_cases p q) as [A|A], (und_cases p' q') as [B|B]; rewrite A, B in E; injection E as -> ->; auto.
Qed.
Lemma und_next d p : d < 3 -> undirected [p; next d p] = [p; next d p].
Proof. destruct p as ((x, y), z). intros L. le2 d; cbn [next undirected]; match goal with |- (if ?a <? ?b then _ else _) = _ => replace (a <? b) with true by (symmetry; apply Nat.ltb_lt; lia) end; auto. Qed.
Lemma und_prev d p : d < 3 -> undirected [next d p; p] = [p; next d p].
Proof. destruct p as ((x, y), z). intros L. le2 d; cbn [next undirected]; match goal with |- (if ?a <? ?b then _ else _) = _ => replace (a <? b) with false by (symmetry; apply Nat.ltb_ge; lia) end; auto. Qed.

Lemma common_edge_some a b es : forall h0 h, common_edge es a b h0 = Some h -> h0 <= h /\ exists e, nth_error es (h - h0) = Some e /\ (me_verts e = [a; b] \/ me_verts e = [b; a]).
Proof.
  induction es as [|e r IH]; intros h0 h E; cbn in E; [discriminate|].
  assert (common_edge r a b (S h0) = Some h -> h0 <= h /\ exists e', nth_error (e :: r) (h - h0) = Some e' /\ (me_verts e' = [a; b] \/ me_verts e' = [b; a])) as K.
  { intros E'. destruct (IH _ _ E') as (L & e' & X & Y). split; [lia|]. exists e'. replace (h - h0) with (S (h - S h0)) by lia. auto. }
  destruct (me_verts e) as [|p [|q [|z l]]] eqn:V; auto.
  destruct (((p =? a) && (q =? b)) || ((p =? b) && (q =? a))) eqn:T; auto. injection E as <-. split; auto. exists e. rewrite Nat.sub_diag. split; auto.
  apply orb_true_iff in T as [T|T]; apply andb_true_iff in T as (T1 & T2); apply Nat.eqb_eq in T1, T2; subst; auto.
Qed.
Lemma common_edge_none a b es : forall h0, common_edge es a b h0 = None -> forall e, In e es -> me_verts e <> [a; b] /\ me_verts e <> [b; a].
Proof.
  induction es as [|e r IH]; intros h0 E e' I; cbn in E; [easy|].
  destruct (me_verts e) as [|p [|q [|z l]]] eqn:V; try (destruct I as [<-|I]; [rewrite V; split; discriminate|eauto]).
  destruct (((p =? a) && (q =? b)) || ((p =? b) && (q =? a))) eqn:T; [discriminate|]. destruct I as [<-|I]; [|eauto].
  rewrite V. apply orb_false_iff in T as (T1 & T2). split; intros X; injection X as -> ->; [rewrite !Nat.eqb_refl in T1|rewrite !Nat.eqb_refl in T2]; discriminate.
Qed.

Section Edges.
Variables (N lo hi : gpos) (num : list gpos -> nat) (pos : nat -> gpos) (nv : nat).
Hypothesis INJ : forall a b, a < nv -> b < nv -> pos a = pos b -> a = b.
Let und (e : ment) := undirected (map pos (me_verts e)).
Definition edge_good (e : ment) : Prop :=
  exists a b, me_verts e = [a; b] /\ a < nv /\ b < nv /\ is_edge lo hi (und e) /\ me_glob e = num (und e) /\ classified_in model2 N (me_gdim e) (me_gid e) (map pos (me_verts e)).
Definition edges_good (es : list ment) : Prop := (forall e, In e es -> edge_good e) /\ NoDup (map und es).
Lemma side_of_mono es t s l : side_of es pos s = l -> l <> [] -> side_of (es ++ t) pos s = l.
Proof.
  unfold side_of. intros E NE. destruct (nth_error es (fst s)) as [e|] eqn:X; [|congruence]. rewrite nth_error_app1, X; auto. apply nth_error_Some. intros Y. pose proof (eq_trans (eq_sym X) Y). discriminate.
Qed.
Lemma cell_edge_ok es a b p q gdim gid glob : edges_good es -> a < nv -> b < nv -> pos a = p -> pos b = q -> p <> q -> is_edge lo hi (undirected [p; q]) ->
  glob = num (undirected [p; q]) -> classified_in model2 N gdim gid [p; q] ->
  exists t s, cell_edge es a b gdim gid glob = Ok (es ++ t, s) /\ edges_good (es ++ t) /\ side_of (es ++ t) pos s = [p; q] /\ (forall x, In x (map und (es ++ t)) <-> In x (map und es) \/ x = undirected [p; q]).
Proof.
  intros (G & ND) La Lb <- <- D E Gl C. unfold cell_edge. destruct (common_edge es a b 0) as [h|] eqn:CE.
  - apply common_edge_some in CE as (_ & e & X & V). rewrite Nat.sub_0_r in X. assert (rd es h = Ok e) as -> by (now apply rd_Ok). cbn [bind].
    assert (undirected (map pos (me_verts e)) = undirected [pos a; pos b]) as U.
    { destruct V as [-> | ->]; cbn [map]; auto. destruct E as (d & r & Ld & _ & _ & E). destruct (und_cases (pos a) (pos b)) as [K|K]; rewrite K in E; injection E as -> ->; rewrite ?und_next, ?und_prev; auto. }
    assert (rd (me_verts e) 0 = Ok (nth 0 (me_verts e) 0)) as -> by (destruct V as [-> | ->]; reflexivity). cbn [bind].
    exists []. eexists. rewrite app_nil_r. split; [reflexivity|]. split; [split; auto|]. split.
    + unfold side_of. cbn [fst snd]. rewrite X. destruct V as [V|V]; rewrite V; cbn [nth map rev app].
      * now rewrite Nat.eqb_refl. * destruct (Nat.eqb_spec b a) as [->|_]; [congruence|auto].
    + intros x. split; auto. intros [I| ->]; auto. apply in_map_iff. exists e. split; auto. eapply nth_error_In; eauto.
  - pose proof (@common_edge_none a b es 0 CE) as NO. eexists. eexists. split; [reflexivity|]. split; [|split].
    + split.
      * intros e I. apply in_app_iff in I as [I|[<-|[]]]; auto. exists a, b. do 5 (split; auto).
      * rewrite map_app. apply NoDup_app_iff. split; auto. split; [cbn; constructor; [easy|constructor]|]. intros x I [<-|[]]. apply in_map_iff in I as (e & U & I). destruct (G e I) as (a' & b' & V & La' & Lb' & _). unfold und in U. rewrite V in U. cbn [map me_verts] in U.
        apply und_inj in U as [(P1 & P2)|(P1 & P2)]; apply INJ in P1, P2; auto; subst; destruct (NO e I) as (N1 & N2); first [now apply N1|now apply N2].
    + unfold side_of. cbn [fst snd]. rewrite nth_error_app2, Nat.sub_diag by lia. reflexivity.
    + intros x. rewrite map_app, in_app_iff. cbn. intuition.
Qed.
End Edges.
