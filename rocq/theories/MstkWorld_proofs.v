(** Directions of ghost edges and faces. *)
From Coq Require Import Permutation.
From Verif Require Import Base Loop Defs Cache Cache_proofs MstkMesh MstkMesh_spec MstkMesh_proofs MstkMesh_examples Props_MstkIds MstkMesh_proofs2 MstkWorld_spec Props_MstkOrder.
From Verif Require Import Geometry_spec.
Set Implicit Arguments. Unset Strict Implicit.

(** ** what init_dirs computes *)
Lemma flips_exact check m rcv i k fl : init_dirs false check m rcv i k = Ok fl ->
  (forall h h', In h (k_all m k) -> In h' (k_all m k) -> i k h - 1 = i k h' - 1 -> h = h') ->
  forall h, In h (k_all m k) -> nth (i k h - 1) fl false = is_pghost (k_ptype m k h) && reversed (rcv k h) (local_pair m k h).
Proof.
  intros E Inj. unfold init_dirs in E.
  assert (G : forall l fl0 fl, incl l (k_all m k) -> foldM l (flip_one check m rcv i k) fl0 = Ok fl ->
    forall h, In h (k_all m k) -> nth (i k h - 1) fl false = if existsb (Nat.eqb h) l then (reversed (rcv k h) (local_pair m k h) || nth (i k h - 1) fl0 false) else nth (i k h - 1) fl0 false).
  { clear E fl. induction l as [|x l IH]; intros fl0 fl Hi E h Ih; [cbn [foldM] in E; injection E as <-; reflexivity|]. cbn [foldM] in E. apply bind_Ok in E as (fl1 & E1 & E).
    specialize (IH fl1 fl (fun y Iy => Hi y (or_intror Iy)) E h Ih). rewrite IH. cbn [existsb]. pose proof (Hi x (or_introl eq_refl)) as Ix.
    assert (X : nth (i k h - 1) fl1 false = if h =? x then (reversed (rcv k h) (local_pair m k h) || nth (i k h - 1) fl0 false) else nth (i k h - 1) fl0 false).
    { unfold flip_one in E1. destruct (h =? x) eqn:Q.
      - apply Nat.eqb_eq in Q. subst x. destruct (reversed _ _); [|destruct (_ && _); [discriminate|]; injection E1 as <-; reflexivity].
        apply wr_Ok in E1 as [L ->]. apply nth_error_nth. apply nth_error_set_nth_eq. auto.
      - apply Nat.eqb_neq in Q. destruct (reversed (rcv k x) _); [|destruct (_ && _); [discriminate|]; injection E1 as <-; reflexivity].
        apply wr_Ok in E1 as [L ->]. assert (Y : nth_error (set_nth fl0 (i k x - 1) true) (i k h - 1) = nth_error fl0 (i k h - 1)) by (apply nth_error_set_nth_ne; intros Q2; apply Q; apply Inj; auto).
        destruct (nth_error fl0 (i k h - 1)) as [v|] eqn:Z; [rewrite (nth_error_nth _ _ _ Y); symmetry; apply nth_error_nth; auto|].
        apply nth_error_None in Z, Y. rewrite !nth_overflow; auto. }
    rewrite X. destruct (h =? x), (existsb (Nat.eqb h) l), (reversed _ _); reflexivity. }
  intros h Ih. rewrite (G (ghost_list m k) _ _ (fun x Ix => proj1 (proj1 (filter_In _ _ _) Ix)) E h Ih). rewrite nth_repeat.
  destruct (existsb (Nat.eqb h) (ghost_list m k)) eqn:Q.
  - apply existsb_exists in Q as (x & Ix & Ex). apply Nat.eqb_eq in Ex. subst x. apply filter_In in Ix as [_ ->]. rewrite Bool.orb_false_r. reflexivity.
  - destruct (is_pghost (k_ptype m k h)) eqn:P; auto. assert (existsb (Nat.eqb h) (ghost_list m k) = true); [|congruence]. apply existsb_exists. exists h. rewrite Nat.eqb_refl. split; auto. apply filter_In. auto.
Qed.
(** no exception unless the data do not fit *)
Lemma flips_no_throw serial check m rcv i k : (forall h, In h (k_all m k) -> k_ptype m k h = PGHOST -> reversed (rcv k h) (local_pair m k h) = true \/ mismatch (rcv k h) (local_pair m k h) = false) ->
  init_dirs serial check m rcv i k <> Thrown.
Proof.
  intros H. unfold init_dirs. destruct serial; [discriminate|].
  assert (G : forall l fl, (forall h, In h l -> reversed (rcv k h) (local_pair m k h) = true \/ mismatch (rcv k h) (local_pair m k h) = false) -> foldM l (flip_one check m rcv i k) fl <> Thrown).
  { induction l as [|x l IH]; intros fl Hl; cbn [foldM]; [discriminate|]. unfold flip_one at 1. destruct (reversed (rcv k x) (local_pair m k x)) eqn:R.
    - unfold wr at 1. destruct (_ <? _); cbn [bind]; [|discriminate]. apply IH. intros h Ih. apply Hl. right; auto.
    - destruct (Hl x (or_introl eq_refl)) as [Q|Q]; [congruence|]. rewrite Q, Bool.andb_false_r. cbn [bind]. apply IH. intros h Ih. apply Hl. right; auto. }
  apply G. intros h Ih. apply filter_In in Ih as [I1 I2]. apply H; auto. destruct (k_ptype m k h); auto; discriminate.
Qed.
Lemma construct_no_throw serial bg faces edges m rcv : (forall k, NoDup (k_all m k)) ->
  (forall k h, In h (k_all m k) -> k = MEDGE \/ k = MFACE /\ k_dim m <> 2 -> k_ptype m k h = PGHOST -> reversed (rcv k h) (local_pair m k h) = true \/ mismatch (rcv k h) (local_pair m k h) = false) ->
  exists j, construct serial bg faces edges m rcv = Ok j.
Proof.
  intros N H. destruct (@construct_made serial bg faces edges m rcv N) as [(j & E & _)|[_ T]]; [eauto|]. exfalso. unfold construct in T.
  destruct (@nodes_ok bg m N ids0) as (i1 & l1 & E1 & _). rewrite E1 in T. cbn [bind fst snd] in T.
  assert (X : exists r, (if edges then init_edges serial m rcv i1 else Ok (i1, [], [], no_ids)) = Ok r).
  { destruct edges; [|eauto]. destruct (@edges_ok serial bg m rcv N i1) as [(i' & fl & l & E & _)|[_ E]]; [eauto|]. exfalso.
    unfold init_edges in E. destruct (@two_ok bg m N EDGE i1 (or_intror (or_introl eq_refl))) as (i' & E' & _ & _ & l & L & _). cbn [mkind_of] in *. rewrite E' in E. cbn [bind fst snd] in E.
    pose proof (@flips_no_throw serial true m rcv i' MEDGE (fun h I => H MEDGE h I (or_introl eq_refl))) as NT. destruct (init_dirs _ _ _ _ _ _); cbn [bind] in E; try congruence. rewrite L in E. discriminate. }
  destruct X as (r & X). rewrite X in T. cbn [bind] in T.
  assert (Y : exists r2, (if faces then init_faces serial m rcv (fst (fst (fst r))) else Ok (fst (fst (fst r)), [], [], no_ids)) = Ok r2).
  { destruct faces; [|eauto]. destruct (@faces_ok serial bg m rcv N (fst (fst (fst r)))) as [(i' & fl & l & E & _)|[_ E]]; [eauto|]. exfalso.
    unfold init_faces in E. destruct (@two_ok bg m N FACE (fst (fst (fst r))) (or_intror (or_intror eq_refl))) as (i' & E' & _ & _ & l & L & _). cbn [mkind_of] in *. rewrite E' in E. cbn [bind fst snd] in E.
    pose proof (@flips_no_throw serial (k_dim m =? 3) m rcv i' (face_kind m)) as NT. destruct (init_dirs _ _ _ _ _ _); cbn [bind] in E; try congruence; [rewrite L in E; discriminate|].
    apply NT; auto. intros h I. apply H; auto. unfold face_kind in *. destruct (k_dim m =? 2) eqn:D; [left; auto|right; split; auto; apply Nat.eqb_neq; auto]. }
  destruct Y as (r2 & Y). rewrite Y in T. cbn [bind] in T. destruct (@cells_ok bg m N (fst (fst (fst r2)))) as (i3 & l3 & E3 & _). rewrite E3 in T. discriminate.
Qed.
