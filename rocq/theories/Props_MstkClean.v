(** C101: an extraction leaves the mesh it is made from as it was. *)
From Coq Require Import Reals FunctionalExtensionality.
From Verif Require Import Base Loop Factory MeshSet_proofs Geometry_spec MstkMesh MstkMesh_spec MstkMesh_proofs MstkMesh_build MstkExtract MstkExtract_spec MstkExtract_proofs MstkClean Props_Cache.
Set Implicit Arguments. Unset Strict Implicit.

(** * Small specification *)
(** what the request gives on a mesh that nothing was ever extracted from *)
Definition alone (MAXPF3 MAXPV2 : nat) (m : mstk) (X : nat -> xyz) (q : request) : outcome xmesh :=
  s <- extract_mstk_mesh MAXPF3 MAXPV2 m X (q_flatten q) (q_dim q) (q_extrude q) (q_src q) ;; Ok (x_mesh s).
(** the request is for entities of the mesh *)
Definition asks_for (m : mstk) (q : request) : Prop := forall h, In h (q_src q) -> In h (k_all m (q_dim q)).

(** * Proofs *)
Section Clean.
Variables (MAXPF3 MAXPV2 : nat) (m : mstk) (X : nat -> xyz) (flatten : bool).
(** marks only at the entities D *)
Definition inside (D : mkind -> nat -> Prop) (c : marks) : Prop := forall k h, c k h <> None -> D k h.
Lemma inside_set D c k h n : inside D c -> D k h -> inside D (set_cp c k h n).
Proof.
  intros I Dk k' h' H. unfold set_cp in H. destruct (mkind_eqb k' k) eqn:Ek; cbn [andb] in H; [|apply I; auto]. apply mkind_eqb_eq in Ek. subst k'.
  destruct (Nat.eqb_spec h' h) as [Eh|Eh]; [rewrite Eh; auto|apply I; auto].
Qed.
Lemma thread_inv A B S (P : S -> Prop) (f : A -> S -> S * B) l : (forall a s, In a l -> P s -> P (fst (f a s))) -> forall s, P s -> P (fst (thread f l s)).
Proof.
  induction l as [|a l IH]; intros F s H; auto. cbn [thread]. pose proof (F a s (or_introl eq_refl) H) as Ha. destruct (f a s) as [s1 b]. cbn [fst] in Ha.
  specialize (IH (fun a0 s0 I0 => F a0 s0 (or_intror I0)) s1 Ha). destruct (thread f l s1). auto.
Qed.
Lemma foldM_inv A S (P : S -> Prop) (f : A -> S -> outcome S) l : (forall a s s', In a l -> P s -> f a s = Ok s' -> P s') -> forall s s', P s -> foldM l f s = Ok s' -> P s'.
Proof.
  induction l as [|a l IH]; intros F s s' H E; cbn [foldM] in E; [injection E as <-; auto|]. apply bind_inv in E as (s1 & E1 & E). eapply IH; [|eapply F; [left; reflexivity|exact H|exact E1]|exact E].
  intros. eapply F; [right|..]; eauto.
Qed.
Lemma copy_vertex_in D co v s : inside D (cp s) -> D MVERTEX v -> inside D (cp (fst (copy_vertex X co v s))).
Proof. intros I H. unfold copy_vertex. destruct (cp s MVERTEX v); auto. cbn [fst cp]. apply inside_set; auto. Qed.
Lemma copy_edge_in D e s : inside D (cp s) -> D MEDGE e -> (forall v, v_of_e m v e -> D MVERTEX v) -> inside D (cp (fst (copy_edge m X flatten e s))).
Proof.
  intros I H V. unfold copy_edge. destruct (cp s MEDGE e); auto.
  assert (I1 := @copy_vertex_in D (flat flatten) (fst (k_ev m e)) s I (V _ (or_introl eq_refl))). destruct (copy_vertex X (flat flatten) (fst (k_ev m e)) s) as [s1 a]. cbn [fst] in I1.
  assert (I2 := @copy_vertex_in D (flat flatten) (snd (k_ev m e)) s1 I1 (V _ (or_intror eq_refl))). destruct (copy_vertex X (flat flatten) (snd (k_ev m e)) s1) as [s2 b]. cbn [fst] in I2.
  cbn [fst cp]. apply inside_set; auto.
Qed.
Lemma copy_sface_in D f s s' : inside D (cp s) -> D MFACE f -> (forall e, e_of_f m e f -> D MEDGE e /\ forall v, v_of_e m v e -> D MVERTEX v) ->
  copy_sface MAXPV2 m X flatten f s = Ok s' -> inside D (cp s').
Proof.
  intros I H V E. unfold copy_sface in E. destruct (MAXPV2 <? _); [discriminate|].
  assert (T := @thread_inv _ _ _ (fun s => inside D (cp s)) (copy_edge_dir m X flatten) (k_fe m f)). specialize (T ltac:(
    intros ed s0 Ied I0; unfold copy_edge_dir; assert (Ee : e_of_f m (fst ed) f) by (exact (in_map fst _ _ Ied)); destruct (V _ Ee) as [V1 V2];
    pose proof (@copy_edge_in D (fst ed) s0 I0 V1 V2) as Q; destruct (copy_edge m X flatten (fst ed) s0); exact Q) s I).
  cbv beta in T. destruct (thread _ _ s) as [s1 es]. injection E as <-. cbn [cp fst] in *. apply inside_set; auto.
Qed.
Lemma copy_vface_in D f s r : inside D (cp s) -> D MFACE f -> (forall v, In v (k_fv m f) -> D MVERTEX v) -> copy_vface MAXPV2 m X f s = Ok r -> inside D (cp (fst r)).
Proof.
  intros I H V E. unfold copy_vface in E. destruct (cp s MFACE f); [injection E as <-; auto|]. destruct (MAXPV2 <? _); [discriminate|].
  assert (T := @thread_inv _ _ _ (fun s => inside D (cp s)) (copy_vertex X (fun p => p)) (k_fv m f) (fun v s0 Iv I0 => copy_vertex_in I0 (V v Iv)) s I).
  cbv beta in T. destruct (thread _ _ s) as [s1 es]. injection E as <-. cbn [cp fst] in *. apply inside_set; auto.
Qed.
Lemma copy_region_in D r s s' : inside D (cp s) -> D MREGION r -> (forall f, f_of_r m f r -> D MFACE f /\ forall v, In v (k_fv m f) -> D MVERTEX v) ->
  copy_region MAXPF3 MAXPV2 m X r s = Ok s' -> inside D (cp s').
Proof.
  intros I H V E. unfold copy_region in E. destruct (MAXPF3 <? _); [discriminate|]. apply bind_inv in E as (a & E1 & E). injection E as <-. cbn [cp]. apply inside_set; auto.
  unfold copy_vfaces in E1. revert E1. apply foldM_inv with (P := fun a : xstate * list (nat * bool) => inside D (cp (fst a))); auto.
  intros fd a0 a1 Ifd I0 E. apply bind_inv in E as (q & E2 & E). injection E as <-. cbn [fst]. destruct (V (fst fd)) as [V1 V2]; [exact (in_map fst _ _ Ifd)|]. eapply copy_vface_in; eauto.
Qed.

(** removing *)
Lemma rem_here c k h : rem_cp c k h k h = None.
Proof. unfold rem_cp. rewrite Nat.eqb_refl, (proj2 (mkind_eqb_eq k k) eq_refl). auto. Qed.
Lemma rem_none c k h k' h' : c k' h' = None -> rem_cp c k h k' h' = None.
Proof. intros E. unfold rem_cp. destruct (_ && _); auto. Qed.
(** a loop of steps that never add a mark and each remove some *)
Lemma fold_clean A (f : marks -> A -> marks) (D : A -> mkind -> nat -> Prop) l : (forall c a k h, c k h = None -> f c a k h = None) -> (forall c a k h, In a l -> D a k h -> f c a k h = None) ->
  forall c, (forall k h, c k h = None -> fold_left f l c k h = None) /\ (forall a k h, In a l -> D a k h -> fold_left f l c k h = None).
Proof.
  intros M H. induction l as [|a l IH]; intros c; cbn [fold_left]; [split; [auto|intros ? ? ? []]|]. destruct (IH (fun c0 b k h I => H c0 b k h (or_intror I)) (f c a)) as [I1 I2].
  split; [intros k h E; apply I1, M, E|]. intros b k h [<-|Ib] Db; [apply I1, H; auto; left; auto|eapply I2; eauto].
Qed.
Lemma clean_vface_ok : (forall c f k h, c k h = None -> clean_vface m c f k h = None) /\
  (forall c f k h, k = MFACE /\ h = f \/ k = MVERTEX /\ In h (k_fv m f) -> clean_vface m c f k h = None).
Proof.
  assert (F : forall c f, (forall k h, c k h = None -> fold_left (fun c v => rem_cp c MVERTEX v) (k_fv m f) c k h = None) /\
    (forall v k h, In v (k_fv m f) -> k = MVERTEX /\ h = v -> fold_left (fun c v => rem_cp c MVERTEX v) (k_fv m f) c k h = None)).
  { intros c f. apply fold_clean with (D := fun v k h => k = MVERTEX /\ h = v); [intros; apply rem_none; auto|intros c0 v k h _ [-> ->]; apply rem_here]. }
  split.
  - intros c f k h E. unfold clean_vface. apply rem_none. apply (F _ f). apply rem_none. auto.
  - intros c f k h [[-> ->]|[-> Iv]]; unfold clean_vface; [apply rem_here|]. apply rem_none. eapply (proj2 (F _ f)); eauto.
Qed.
Lemma clean_region_ok : (forall c r k h, c k h = None -> clean_region m c r k h = None) /\
  (forall c r k h, k = MREGION /\ h = r \/ (exists f, f_of_r m f r /\ (k = MFACE /\ h = f \/ k = MVERTEX /\ In h (k_fv m f))) -> clean_region m c r k h = None).
Proof.
  destruct clean_vface_ok as [A B].
  assert (F := fun c r => @fold_clean nat (clean_vface m) (fun f k h => k = MFACE /\ h = f \/ k = MVERTEX /\ In h (k_fv m f)) (map fst (k_rf m r)) A (fun c0 f k h _ Q => B c0 f k h Q) c).
  split.
  - intros c r k h E. unfold clean_region. apply rem_none. apply (F _ r). auto.
  - intros c r k h [[-> ->]|(f & If & Q)]; unfold clean_region; [apply rem_here|]. apply rem_none. eapply (proj2 (F _ r)); eauto.
Qed.
Lemma clean_sface_ok : (forall c f k h, c k h = None -> clean_sface m c f k h = None) /\
  (forall c f k h, k = MFACE /\ h = f \/ (exists ed, In ed (k_fe m f) /\ (k = MEDGE /\ h = fst ed \/ k = MVERTEX /\ h = snd (used m ed))) -> clean_sface m c f k h = None).
Proof.
  assert (A : forall c ed k h, c k h = None -> clean_edge m c ed k h = None) by (intros; unfold clean_edge; apply rem_none, rem_none; auto).
  assert (B : forall c ed k h, k = MEDGE /\ h = fst ed \/ k = MVERTEX /\ h = snd (used m ed) -> clean_edge m c ed k h = None).
  { intros c [e d] k h [[-> ->]|[-> ->]]; unfold clean_edge, used; cbn [fst snd]; [apply rem_none, rem_here|]. destruct d; [|unfold swap; cbn [snd fst]]; apply rem_here. }
  assert (F := fun c f => @fold_clean _ (clean_edge m) (fun ed k h => k = MEDGE /\ h = fst ed \/ k = MVERTEX /\ h = snd (used m ed)) (k_fe m f) A (fun c0 ed k h _ Q => B c0 ed k h Q) c).
  split.
  - intros c f k h E. unfold clean_sface. apply rem_none. apply (F _ f). auto.
  - intros c f k h [[-> ->]|(ed & Ied & Q)]; unfold clean_sface; [apply rem_here|]. apply rem_none. eapply (proj2 (F _ f)); eauto.
Qed.
(** in a closed loop every vertex is at the head of an edge *)
Lemma steps_to A (a : A) l z : map snd (steps a l z) = l ++ [z].
Proof. revert a. induction l as [|b l IH]; intros a; cbn; auto. f_equal. auto. Qed.
Lemma steps_from A (a : A) l z : map fst (steps a l z) = a :: l.
Proof. revert a. induction l as [|b l IH]; intros a; cbn; auto. f_equal. auto. Qed.
Lemma every_head (l : list nat) v : In v l -> In v (map snd (edges l)).
Proof. destruct l as [|a l]; [intros []|]. cbn [edges]. rewrite steps_to. intros [<-|I]; apply in_app_iff; cbn; auto. Qed.
Lemma every_tail (l : list nat) v : In v (map fst (edges l)) -> In v l.
Proof. destruct l as [|a l]; [intros []|]. cbn [edges]. rewrite steps_from. auto. Qed.
Lemma every_end (l : list nat) v : In v (map snd (edges l)) -> In v l.
Proof. destruct l as [|a l]; [intros []|]. cbn [edges]. rewrite steps_to. intros I. apply in_app_iff in I as [I|[<-|[]]]; cbn; auto. Qed.
Lemma vertex_head f e v : mstk_mesh m -> In f (k_all m MFACE) -> e_of_f m e f -> v_of_e m v e -> exists ed, In ed (k_fe m f) /\ v = snd (used m ed).
Proof.
  intros W If Ie Iv. destruct (mk_fv W f If) as [C _]. unfold e_of_f in Ie. apply in_map_iff in Ie as (ed & <- & Ie).
  assert (Iu : In (used m ed) (edges (k_fv m f))) by (rewrite C; apply in_map; auto).
  assert (In v (k_fv m f)).
  { destruct ed as [e [|]]; unfold used, swap, v_of_e in *; cbn [fst snd] in *; destruct Iv as [-> | ->].
    - apply every_tail. exact (in_map fst _ _ Iu).
    - apply every_end. exact (in_map snd _ _ Iu).
    - apply every_end. exact (in_map snd _ _ Iu).
    - apply every_tail. exact (in_map fst _ _ Iu). }
  apply every_head in H. rewrite C, map_map in H. apply in_map_iff in H as (ed' & Q & I'). exists ed'. auto.
Qed.
Lemma extracted_clean dim src s : mstk_mesh m -> (forall h, In h src -> In h (k_all m dim)) -> extract_with MAXPF3 MAXPV2 m X no_marks flatten dim false src = Ok s ->
  clean_up m dim src (cp s) = no_marks.
Proof.
  intros W V E. apply functional_extensionality. intros k. apply functional_extensionality. intros h. unfold no_marks at 1.
  unfold extract_with in E. destruct (flatten && _); [discriminate|]. destruct dim; try discriminate; cbn [clean_up].
  - set (D := fun k h => k = MFACE /\ In h src \/ exists f e, In f src /\ e_of_f m e f /\ (k = MEDGE /\ h = e \/ k = MVERTEX /\ v_of_e m h e)).
    assert (I : inside D (cp s)).
    { revert E. apply foldM_inv with (P := fun s => inside D (cp s)); [|intros k0 h0 Q; exfalso; apply Q; auto].
      intros f s0 s1 If I0 E. eapply copy_sface_in; eauto; [left; auto|]. intros e Ie. split; [right; exists f, e; auto|]. intros v Iv. right. exists f, e. auto. }
    destruct clean_sface_ok as [A B].
    destruct (@fold_clean _ (clean_sface m) (fun f k h => k = MFACE /\ h = f \/ (exists ed, In ed (k_fe m f) /\ (k = MEDGE /\ h = fst ed \/ k = MVERTEX /\ h = snd (used m ed)))) src A
      (fun c0 f k h _ Q => B c0 f k h Q) (cp s)) as [F1 F2].
    destruct (cp s k h) as [n|] eqn:Ec; [|apply F1; auto]. destruct (I k h) as [[-> If]|(f & e & If & Ie & [[-> ->]|[-> Iv]])]; [congruence|..].
    + eapply F2; eauto.
    + apply in_map_iff in Ie as (ed & <- & Ied). apply (F2 f); auto. right. exists ed. auto.
    + destruct (vertex_head W (V f If) Ie Iv) as (ed & Ied & ->). apply (F2 f); auto. right. exists ed. auto.
  - set (D := fun k h => k = MREGION /\ In h src \/ exists r f, In r src /\ f_of_r m f r /\ (k = MFACE /\ h = f \/ k = MVERTEX /\ In h (k_fv m f))).
    assert (I : inside D (cp s)).
    { revert E. apply foldM_inv with (P := fun s => inside D (cp s)); [|intros k0 h0 Q; exfalso; apply Q; auto].
      intros r s0 s1 Ir I0 E. eapply copy_region_in; eauto; [left; auto|]. intros f If. split; [right; exists r, f; auto|]. intros v Iv. right. exists r, f. auto. }
    destruct clean_region_ok as [A B].
    destruct (@fold_clean _ (clean_region m) (fun r k h => k = MREGION /\ h = r \/ (exists f, f_of_r m f r /\ (k = MFACE /\ h = f \/ k = MVERTEX /\ In h (k_fv m f)))) src A
      (fun c0 f k h _ Q => B c0 f k h Q) (cp s)) as [F1 F2].
    destruct (cp s k h) as [n|] eqn:Ec; [|apply F1; auto]. destruct (I k h) as [[-> Ir]|(r & f & Ir & If & Q)]; [congruence|..].
    + eapply F2; eauto.
    + apply (F2 r); auto. right. exists f. auto.
Qed.
End Clean.

(** * C101 *)
(** An extraction that went through leaves no mark on the mesh, and neither does one that is refused. *)
Theorem c101_leaves_no_marks : forall MAXPF3 MAXPV2 m X q, mstk_mesh m -> asks_for m q -> q_ok q = true -> snd (serve MAXPF3 MAXPV2 m X no_marks q) = no_marks.
Proof.
  intros MAXPF3 MAXPV2 m X q W V O. unfold serve. destruct (extract_with MAXPF3 MAXPV2 m X no_marks (q_flatten q) (q_dim q) (q_extrude q) (q_src q)) as [s| | | |] eqn:E; auto.
  rewrite O. cbn [snd]. destruct (q_extrude q) eqn:Ex; [discriminate|]. apply (extracted_clean W V E).
Qed.
(** Whatever was extracted from a mesh before, and in whatever order: every request gives what it gives on a mesh that nothing was ever extracted from. *)
Theorem c101_history : forall MAXPF3 MAXPV2 m X qs, mstk_mesh m -> (forall q, In q qs -> asks_for m q /\ q_ok q = true) ->
  fst (history MAXPF3 MAXPV2 m X no_marks qs) = map (alone MAXPF3 MAXPV2 m X) qs.
Proof.
  intros MAXPF3 MAXPV2 m X qs W. induction qs as [|q qs IH]; intros H; auto. cbn [history map]. destruct (H q (or_introl eq_refl)) as [V O].
  pose proof (@c101_leaves_no_marks MAXPF3 MAXPV2 m X q W V O) as N. assert (A : fst (serve MAXPF3 MAXPV2 m X no_marks q) = alone MAXPF3 MAXPV2 m X q).
  { unfold serve, alone. change (extract_with MAXPF3 MAXPV2 m X no_marks (q_flatten q) (q_dim q) (q_extrude q) (q_src q)) with
      (extract_mstk_mesh MAXPF3 MAXPV2 m X (q_flatten q) (q_dim q) (q_extrude q) (q_src q)). destruct (extract_mstk_mesh _ _ _ _ _ _ _ _); auto. rewrite O. auto. }
  destruct (serve MAXPF3 MAXPV2 m X no_marks q) as [a c]. cbn [fst snd] in *. subst c. specialize (IH (fun q0 I0 => H q0 (or_intror I0))).
  destruct (history MAXPF3 MAXPV2 m X no_marks qs) as [l c']. cbn [fst] in *. congruence.
Qed.
(** Not so if an extraction fails after the entities were copied (the parent of a ghost is not there, a set cannot be made): the marks stay, and the same request, made again and going
    through, gives a surface whose faces have none of their edges and vertices in the new mesh. *)
Theorem c101_after_failure_refuted : forall MAXPF3 MAXPV2 m X flatten src, mstk_mesh m -> (forall f, In f src -> In f (k_all m MFACE) /\ length (k_fe m f) <= MAXPV2) ->
  let q ok := Request flatten MFACE false src ok in
  exists x0 x, alone MAXPF3 MAXPV2 m X (q true) = Ok x0 /\ fst (history MAXPF3 MAXPV2 m X no_marks [q false; q true]) = [Thrown; Ok x] /\
    map fst (x_sfaces x) = src /\ x_verts x = [] /\ x_edges x = [] /\ (src <> [] -> x_verts x0 <> [] /\ x_edges x0 <> []).
Proof.
  intros MAXPF3 MAXPV2 m X flatten src W V q. destruct (@extract_surface MAXPF3 MAXPV2 m X flatten src (fun f I => proj2 (V f I))) as (s & Es & CS & _ & Te & _).
  assert (Me : forall f e, In f src -> e_of_f m e f -> cp s MEDGE e <> None).
  { intros f e If Ie. assert (Ip : In e (pe (x_mesh s))) by (apply (cs_e CS); eauto). apply In_nth_error in Ip as [n En]. apply Te in En. congruence. }
  assert (H : forall l s0 pre, (forall f, In f l -> In f src) -> (forall f e, In f src -> e_of_f m e f -> cp s0 MEDGE e <> None) -> map fst (x_sfaces (x_mesh s0)) = pre ->
    x_verts (x_mesh s0) = [] /\ x_edges (x_mesh s0) = [] -> exists s1, foldM l (copy_sface MAXPV2 m X flatten) s0 = Ok s1 /\ map fst (x_sfaces (x_mesh s1)) = pre ++ l /\
    x_verts (x_mesh s1) = [] /\ x_edges (x_mesh s1) = []).
  { induction l as [|f l IH]; intros s0 pre Il M F E0; cbn [foldM]; [exists s0; rewrite app_nil_r; auto|]. unfold copy_sface at 1. destruct (V f (Il f (or_introl eq_refl))) as [_ Lf].
    apply Nat.ltb_ge in Lf. rewrite Lf.
    assert (T : forall es, (forall ed, In ed es -> e_of_f m (fst ed) f) -> exists bs, thread (copy_edge_dir m X flatten) es s0 = (s0, bs)).
    { induction es as [|ed es IHe]; intros Ie; cbn [thread]; [eauto|]. unfold copy_edge_dir at 1, copy_edge. pose proof (M f (fst ed) (Il f (or_introl eq_refl)) (Ie ed (or_introl eq_refl))) as N.
      destruct (cp s0 MEDGE (fst ed)) as [n|]; [|congruence]. destruct IHe as [bs Eb]; [intros; apply Ie; right; auto|]. rewrite Eb. eauto. }
    destruct (T (k_fe m f)) as [bs Eb]; [intros ed Ied; exact (in_map fst _ _ Ied)|]. rewrite Eb. cbn [bind].
    match goal with |- context [foldM l _ ?s2] => destruct (IH s2 (pre ++ [f])) as (s1 & E1 & F1 & G1) end.
    - intros; apply Il; right; auto.
    - intros f' e' If' Ie'. cbn [cp]. rewrite set_cp_kind by discriminate. eauto.
    - cbn [x_mesh x_sfaces]. rewrite map_app, F. auto.
    - cbn [x_mesh x_verts x_edges]. auto.
    - exists s1. rewrite <- app_assoc in F1. auto. }
  destruct (H src (XState no_xmesh (cp s)) []) as (s1 & E1 & F1 & G1 & G2); auto.
  exists (x_mesh s), (x_mesh s1). split; [unfold alone, q; cbn [q_flatten q_dim q_extrude q_src]; rewrite Es; auto|]. split.
  { unfold q. cbn [history]. unfold serve at 1. cbn [q_flatten q_dim q_extrude q_src q_ok]. change (extract_with MAXPF3 MAXPV2 m X no_marks flatten MFACE false src) with (extract_mstk_mesh MAXPF3 MAXPV2 m X flatten MFACE false src).
    rewrite Es. unfold serve. cbn [q_flatten q_dim q_extrude q_src q_ok]. unfold extract_with. rewrite Bool.andb_false_r, E1. auto. }
  split; auto. split; auto. split; auto. intros N. destruct src as [|f src]; [congruence|]. destruct (V f (or_introl eq_refl)) as [If _].
  destruct (mk_fe_nodup W f If) as [_ L]. destruct (k_fe m f) as [|ed es] eqn:Ef; [cbn in L; lia|].
  assert (Ie : In (fst ed) (pe (x_mesh s))). { apply (cs_e CS). exists f. split; [left; auto|]. unfold e_of_f. rewrite Ef. left. auto. }
  assert (Iv : In (fst (k_ev m (fst ed))) (pv (x_mesh s))). { apply (cs_v CS). exists (fst ed). split; auto. left. auto. }
  unfold pe, pv in *. split; intros Q; rewrite Q in *; [destruct Iv|destruct Ie].
Qed.
(** the clean-up of a surface is enough only because the edges of a face make a closed loop: a step removes the mark of one vertex of an edge, not of both *)
Example c101_one_vertex_per_edge : let c : marks := fun k h => Some h in
  clean_sface hp_mesh c 2 MVERTEX 5 = None /\ clean_edge hp_mesh c (5, true) MVERTEX (fst (k_ev hp_mesh 5)) = Some (fst (k_ev hp_mesh 5)) /\
  clean_edge hp_mesh c (5, true) MVERTEX (snd (k_ev hp_mesh 5)) = None.
Proof. vm_compute. auto. Qed.
Example c101_witness : forall X, let qs := [Request true MFACE false [1; 3] true; Request false MREGION false [1; 2] true; Request false MFACE false [3; 1] true; Request false MREGION true [1] true] in
  mstk_mesh hp_mesh /\ (forall q, In q qs -> asks_for hp_mesh q /\ q_ok q = true) /\
  (exists x1 x2 x3, fst (history 12 10 hp_mesh X no_marks qs) = [Ok x1; Ok x2; Ok x3; Thrown] /\ length (x_sfaces x1) = 2 /\ length (x_edges x1) = 7 /\ length (x_regs x2) = 2 /\ length (x_verts x3) = 6).
Proof.
  intros X qs. split; [exact hp_is_mesh|]. assert (H : forall q, In q qs -> asks_for hp_mesh q /\ q_ok q = true).
  { intros q I. unfold qs in I. repeat (destruct I as [<-|I]; [split; [intros h Ih; cbn in Ih; repeat (destruct Ih as [<-|Ih]; [vm_compute; tauto|]); destruct Ih|reflexivity]|]). destruct I. }
  split; auto. rewrite (@c101_history 12 10 hp_mesh X qs hp_is_mesh H). unfold qs. cbn [map]. do 3 eexists. split; [vm_compute; reflexivity|]. vm_compute. auto.
Qed.
