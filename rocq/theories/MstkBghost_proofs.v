(** What create_boundary_ghosts leaves. *)
From Coq Require Import Permutation.
From Verif Require Import Base Loop Defs MeshSet_proofs Cache Cache_proofs MstkMesh MstkMesh_spec MstkMesh_proofs Props_MstkIds MstkMesh_proofs2 MstkBghost.
From Verif Require Import Geometry_spec.
Set Implicit Arguments. Unset Strict Implicit.

(** [m'] is [m] with new cells, each with one face in one direction *)
Record grown (m m' : mstk) (N : list (nat * (nat * bool))) : Prop := {
  g_dim : k_dim m' = k_dim m;
  g_cells : k_all m' (cell_kind m) = k_all m (cell_kind m) ++ map fst N;
  g_others : forall k, k <> cell_kind m -> k_all m' k = k_all m k;
  g_nodup : NoDup (map fst N);
  g_fresh : forall h, In h (map fst N) -> ~ In h (k_all m (cell_kind m));
  g_same : forall k h, k <> cell_kind m \/ ~ In h (map fst N) -> k_ptype m' k h = k_ptype m k h /\ k_gid m' k h = k_gid m k h;
  g_new : forall h, In h (map fst N) -> k_ptype m' (cell_kind m) h = PINTERIOR /\ k_gid m' (cell_kind m) h = 0 /\ k_bghost m' h = true;
  g_old : forall h, ~ In h (map fst N) -> k_bghost m' h = k_bghost m h /\ cfaces_of m' h = cfaces_of m h /\ cverts m' h = cverts m h;
  g_face : forall h x, In (h, x) N -> cfaces_of m' h = [x];
  g_fc : forall f, fcells m' f = fcells m f ++ map fst (filter (fun n => fst (snd n) =? f) N);
  g_ev : k_ev m' = k_ev m;
  g_3d : k_dim m = 3 -> k_fe m' = k_fe m /\ k_fv m' = k_fv m /\ k_fv_rev m' = k_fv_rev m;
  g_side : forall f s, ~ In f (map (fun n => fst (snd n)) N) -> k_side m' f s = k_side m f s }.
Lemma mk_eqb_false a b : a <> b -> mkind_eqb a b = false.
Proof. destruct a, b; simpl; congruence. Qed.
Lemma mk_eqb_refl a : mkind_eqb a a = true.
Proof. destruct a; reflexivity. Qed.
Lemma put_other A (g : nat -> A) h a x : x <> h -> put g h a x = g x.
Proof. intros D. unfold put. apply Nat.eqb_neq in D. rewrite D. auto. Qed.
Lemma put_same A (g : nat -> A) h a : put g h a h = a.
Proof. unfold put. rewrite Nat.eqb_refl. auto. Qed.
Section Loop.
Variables (new : mstk -> nat) (corners : nat -> bool -> list nat) (onpar : nat -> bool).
Hypothesis Fresh : forall m, ~ In (new m) (k_all m (cell_kind m)).
Lemma grown_none m : grown m m [].
Proof. constructor; simpl; auto using NoDup_nil; try tauto. - rewrite app_nil_r; auto. - intros f. rewrite app_nil_r; auto. Qed.
Lemma grown_add m m' N f d : (k_dim m = 2 \/ k_dim m = 3) -> grown m m' N -> grown m (add_cell new corners m' f d) (N ++ [(new m', (f, d))]).
Proof.
  intros Dm G. pose proof (@Fresh m') as Fm. assert (Ck : cell_kind m' = cell_kind m) by (unfold cell_kind; rewrite (g_dim G); auto). rewrite Ck in Fm.
  pose proof (g_cells G) as Gc. rewrite Gc, in_app_iff in Fm. set (h := new m') in *.
  assert (Gf : forall g, fcells (add_cell new corners m' f d) g = if g =? f then fcells m' g ++ [h] else fcells m' g).
  { intros g. unfold add_cell, fcells. fold h. destruct Dm as [D|D]; rewrite (g_dim G), D; cbn; unfold add_to; cbn; rewrite orb_false_r; auto. }
  assert (Gd : k_dim (add_cell new corners m' f d) = k_dim m).
  { unfold add_cell. destruct (k_dim m' =? 2); cbn; apply (g_dim G). }
  assert (Gcf : forall x, cfaces_of (add_cell new corners m' f d) x = if x =? h then [(f, d)] else cfaces_of m' x).
  { intros x. unfold cfaces_of. rewrite Gd, (g_dim G). unfold add_cell. fold h. rewrite (g_dim G). destruct Dm as [D|D]; rewrite D; cbn; unfold put; auto. }
  assert (Gcv : forall x, x <> h -> cverts (add_cell new corners m' f d) x = cverts m' x).
  { intros x D'. unfold cverts. rewrite Gd, (g_dim G). unfold add_cell. fold h. rewrite (g_dim G). destruct Dm as [D|D]; rewrite D; cbn; apply put_other; auto. }
  assert (Gbg : forall x, k_bghost (add_cell new corners m' f d) x = put (k_bghost m') h true x).
  { intros x. unfold add_cell. fold h. destruct (k_dim m' =? 2); reflexivity. }
  assert (Gpt : forall k x, k_ptype (add_cell new corners m' f d) k x = (if mkind_eqb k (cell_kind m) && (x =? h) then PINTERIOR else k_ptype m' k x) /\
                            k_gid (add_cell new corners m' f d) k x = (if mkind_eqb k (cell_kind m) && (x =? h) then 0 else k_gid m' k x)).
  { intros k x. unfold add_cell, cell_kind. fold h. rewrite (g_dim G). destruct Dm as [D|D]; rewrite D; cbn; auto. }
  assert (Gal : forall k, k_all (add_cell new corners m' f d) k = if mkind_eqb k (cell_kind m) then k_all m' k ++ [h] else k_all m' k).
  { intros k. unfold add_cell, cell_kind. fold h. rewrite (g_dim G). destruct Dm as [D|D]; rewrite D; cbn; auto. }
  constructor; rewrite ?map_app; cbn [map fst snd app].
  - exact Gd.
  - rewrite Gal, mk_eqb_refl, Gc, <- app_assoc. auto.
  - intros k Dk. rewrite Gal, mk_eqb_false by auto. apply (g_others G); auto.
  - apply NoDup_app_iff. split; [apply (g_nodup G)|]. split; [apply NoDup_cons; [intros []|apply NoDup_nil]|]. intros x Ix [<-|[]]. tauto.
  - intros x Ix. apply in_app_iff in Ix as [Ix|[<-|[]]]; [apply (g_fresh G); auto|tauto].
  - intros k x H. destruct (Gpt k x) as [-> ->]. replace (mkind_eqb k (cell_kind m) && (x =? h)) with false.
    + apply (g_same G). rewrite in_app_iff in H. tauto.
    + destruct H as [H|H]; [rewrite mk_eqb_false; auto|]. rewrite in_app_iff in H. simpl in H. replace (x =? h) with false; [rewrite andb_false_r; auto|]. symmetry. apply Nat.eqb_neq. intros ->. tauto.
  - intros x Ix. destruct (Gpt (cell_kind m) x) as [-> ->]. rewrite Gbg, mk_eqb_refl. unfold put. destruct (x =? h) eqn:E; cbn; auto. apply (g_new G). apply in_app_iff in Ix as [Ix|[<-|[]]]; auto.
    rewrite Nat.eqb_refl in E. discriminate.
  - intros x Ix. rewrite in_app_iff in Ix. assert (Dx : x <> h) by (intros ->; simpl in Ix; tauto). rewrite Gbg, Gcf, put_other, Gcv by auto. apply Nat.eqb_neq in Dx as ->. apply (g_old G). tauto.
  - intros x y Ix. rewrite Gcf. apply in_app_iff in Ix as [Ix|[Ix|[]]].
    + pose proof (in_map fst _ _ Ix) as Jx. cbn in Jx. destruct (x =? h) eqn:E; [apply Nat.eqb_eq in E; subst x; tauto|]. apply (g_face G Ix).
    + injection Ix as <- <-. rewrite Nat.eqb_refl. auto.
  - intros g. rewrite Gf, filter_app, map_app, (g_fc G). cbn [filter fst snd]. rewrite (Nat.eqb_sym f g). destruct (g =? f); cbn [map fst]; [rewrite <- app_assoc; auto|rewrite !app_nil_r; auto].
  - rewrite <- (g_ev G). unfold add_cell. destruct (k_dim m' =? 2); reflexivity.
  - intros D3. destruct (g_3d G D3) as (A & B & E). unfold add_cell. rewrite (g_dim G), D3. cbn. auto.
  - intros g s Ig. rewrite in_app_iff in Ig. unfold add_cell. destruct (k_dim m' =? 2); cbn; [apply (g_side G); tauto|].
    replace (g =? f) with false by (symmetry; apply Nat.eqb_neq; intros ->; simpl in Ig; tauto). cbn. apply (g_side G). tauto.
Qed.
(** the faces that get a boundary ghost, and its direction *)
Definition outer (m : mstk) (f : nat) : bool := (length (fcells m f) =? 1) && negb (is_pghost (k_ptype m (face_kind m) f)) && negb (onpar f).
Definition rdir (m : mstk) (f : nat) : bool := match fcells m f with c :: _ => reversed_dir (cfaces_of m c) f | [] => false end.
Lemma grown_loop m : (k_dim m = 2 \/ k_dim m = 3) -> forall l don m' N, grown m m' N -> NoDup (don ++ l) -> incl (map (fun n => fst (snd n)) N) don ->
  (forall f c, In f l -> In c (fcells m f) -> In c (k_all m (cell_kind m))) ->
  exists N', grown m (fold_left (bghost_step new corners onpar) l m') N' /\ map snd N' = map snd N ++ map (fun f => (f, rdir m f)) (filter (outer m) l).
Proof.
  intros Dm. induction l as [|f l IH]; intros don m' N G Nd Hi Hc; cbn [fold_left].
  - exists N. split; auto. cbn. rewrite app_nil_r. auto.
  - assert (Nf : ~ In f (map (fun n => fst (snd n)) N)).
    { intros I. apply Hi in I. apply NoDup_app_iff in Nd as (_ & _ & D). apply (D f I). left; auto. }
    assert (Ef : fcells m' f = fcells m f).
    { rewrite (g_fc G). replace (filter (fun n => fst (snd n) =? f) N) with (@nil (nat * (nat * bool))); [cbn; rewrite app_nil_r; auto|]. symmetry. apply filter_none. intros n In'. apply Nat.eqb_neq. intros E. apply Nf. apply in_map_iff. eauto. }
    assert (Nd' : NoDup ((don ++ [f]) ++ l)) by (rewrite <- app_assoc; exact Nd).
    assert (Fk : face_kind m' = face_kind m) by (unfold face_kind; rewrite (g_dim G); auto).
    assert (Fc : face_kind m <> cell_kind m) by apply kinds_differ.
    assert (St : bghost_step new corners onpar m' f = if outer m f then add_cell new corners m' f (rdir m f) else m').
    { unfold bghost_step, outer, rdir. replace (if k_dim m' =? 2 then k_ef m' f else k_fr m' f) with (fcells m f) by (rewrite <- Ef; unfold fcells; rewrite (g_dim G); destruct Dm as [->| ->]; auto).
      destruct (fcells m f) as [|c [|]] eqn:Fl; cbn; auto. rewrite Fk. destruct (g_same G (k := face_kind m) (h := f)) as [-> _]; [auto|].
      destruct (negb (is_pghost (k_ptype m (face_kind m) f)) && negb (onpar f)); auto.
      replace (if k_dim m' =? 2 then k_fe m' c else k_rf m' c) with (cfaces_of m' c) by (unfold cfaces_of; rewrite (g_dim G); destruct Dm as [->| ->]; auto).
      destruct (g_old G (h := c)) as (_ & -> & _); auto. intros I. apply (g_fresh G) in I. apply I. apply (Hc f); [left; auto|rewrite Fl; left; auto]. }
    rewrite St. cbn [filter]. destruct (outer m f) eqn:O.
    + destruct (IH (don ++ [f]) (add_cell new corners m' f (rdir m f)) (N ++ [(new m', (f, rdir m f))])) as (N' & G' & E'); auto.
      * apply grown_add; auto.
      * rewrite map_app. apply incl_app; [apply incl_appl; auto|apply incl_appr, incl_refl].
      * intros g c Ig. apply Hc. right; auto.
      * exists N'. split; auto. rewrite E', map_app, <- app_assoc. reflexivity.
    + destruct (IH (don ++ [f]) m' N) as (N' & G' & E'); auto.
      * apply incl_appl; auto.
      * intros g c Ig. apply Hc. right; auto.
      * exists N'. auto.
Qed.
Lemma created m : mstk_mesh m -> exists N, grown m (create_boundary_ghosts new corners onpar m) N /\ map snd N = map (fun f => (f, rdir m f)) (filter (outer m) (k_all m (face_kind m))).
Proof.
  intros W. unfold create_boundary_ghosts. destruct (@grown_loop m (mk_dim W) (k_all m (face_kind m)) [] m [] (grown_none m)) as (N & G & E).
  - apply (mk_nodup W).
  - intros x [].
  - intros f c If Ic. apply (fcells_ok W If) in Ic as [Ic _]. auto.
  - exists N. auto.
Qed.
End Loop.
