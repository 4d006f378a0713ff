(** Proofs about MstkExtract: the new mesh is a copy of the source entities. *)
From Coq Require Import Reals.
From Verif Require Import Base Loop Defs MstkMesh MstkMesh_spec MstkExtract MstkExtract_spec.
Set Implicit Arguments. Unset Strict Implicit.

Definition grows {A} (l l' : list A) : Prop := exists r, l' = l ++ r.
Lemma grows_refl A (l : list A) : grows l l. Proof. exists []. rewrite app_nil_r. auto. Qed.
Lemma grows_trans A (a b c : list A) : grows a b -> grows b c -> grows a c.
Proof. intros [r ->] [r' ->]. exists (r ++ r'). rewrite app_assoc. auto. Qed.
Lemma grows_nth A (l l' : list A) i x : grows l l' -> nth_error l i = Some x -> nth_error l' i = Some x.
Proof. intros [r ->] E. rewrite nth_error_app1; auto. apply nth_error_Some. congruence. Qed.
Lemma grows_one A (l : list A) x : grows l (l ++ [x]). Proof. exists [x]. auto. Qed.
Lemma grows_map A B (f : A -> B) l l' : grows l l' -> grows (map f l) (map f l').
Proof. intros [r ->]. exists (map f r). apply map_app. Qed.
Lemma nth_last A (l : list A) x : nth_error (l ++ [x]) (length l) = Some x.
Proof. rewrite nth_error_app2, Nat.sub_diag by auto. auto. Qed.
Lemma nth_app_one A (l : list A) x i y : nth_error (l ++ [x]) i = Some y <-> nth_error l i = Some y \/ (i = length l /\ y = x).
Proof.
  destruct (Nat.lt_trichotomy i (length l)) as [L|[-> | L]].
  - rewrite nth_error_app1 by auto. split; auto. intros [E|[E _]]; auto; lia.
  - rewrite nth_last. split; [intros E; injection E as <-; auto|]. intros [E|[_ ->]]; auto. exfalso. assert (nth_error l (length l) <> None) by congruence. apply nth_error_Some in H. lia.
  - split.
    + intros E. exfalso. assert (nth_error (l ++ [x]) i <> None) by congruence. apply nth_error_Some in H. rewrite app_length in H. cbn in H. lia.
    + intros [E|[E _]]; [|lia]. exfalso. assert (nth_error l i <> None) by congruence. apply nth_error_Some in H. lia.
Qed.
Lemma Forall2_imp A B (P Q : A -> B -> Prop) l l' : (forall a b, P a b -> Q a b) -> Forall2 P l l' -> Forall2 Q l l'.
Proof. intros H. induction 1; constructor; auto. Qed.
Lemma Forall2_sym A B (P : A -> B -> Prop) l l' : Forall2 P l l' -> Forall2 (fun b a => P a b) l' l.
Proof. induction 1; constructor; auto. Qed.
Lemma set_cp_same c k h n : set_cp c k h n k h = Some n.
Proof. unfold set_cp. rewrite Nat.eqb_refl. destruct k; auto. Qed.
Lemma set_cp_kind c k h n k' h' : k' <> k -> set_cp c k h n k' h' = c k' h'.
Proof. unfold set_cp. intros N. destruct k', k; try congruence; reflexivity. Qed.
Lemma set_cp_other c k h n h' : h' <> h -> set_cp c k h n k h' = c k h'.
Proof. unfold set_cp. intros N. apply Nat.eqb_neq in N. rewrite N, Bool.andb_false_r. auto. Qed.

Section Thread.
Variables (A B S : Type) (f : A -> S -> S * B) (P : S -> Prop) (R : S -> S -> Prop) (Q : S -> A -> B -> Prop).
Hypothesis (Rr : forall s, R s s) (Rt : forall a b c, R a b -> R b c -> R a c) (Qm : forall s s' a b, R s s' -> Q s a b -> Q s' a b).
Lemma thread_spec l : (forall a s, In a l -> P s -> P (fst (f a s)) /\ R s (fst (f a s)) /\ Q (fst (f a s)) a (snd (f a s))) ->
  forall s, P s -> P (fst (thread f l s)) /\ R s (fst (thread f l s)) /\ Forall2 (Q (fst (thread f l s))) l (snd (thread f l s)).
Proof.
  induction l as [|a l IH]; intros H s Ps; cbn [thread fst snd]; [auto|]. destruct (H a s (or_introl eq_refl) Ps) as (P1 & R1 & Q1). destruct (f a s) as [s1 b]. cbn [fst snd] in *.
  destruct (IH (fun a s I => H a s (or_intror I)) s1 P1) as (P2 & R2 & Q2). destruct (thread f l s1) as [s2 bs]. cbn [fst snd] in *. repeat split; eauto.
Qed.
End Thread.

(** a list of copies with their parents and the attribute that leads to them *)
Definition tracked {A} (c : nat -> option nat) (l : list (nat * A)) : Prop := forall h n, c h = Some n <-> nth_error (map fst l) n = Some h.
Lemma tracked_nodup A c (l : list (nat * A)) : tracked c l -> NoDup (map fst l).
Proof.
  intros T. apply NoDup_nth_error. intros i j L E. destruct (nth_error (map fst l) i) as [h|] eqn:Ei; [|apply nth_error_None in Ei; lia]. symmetry in E. apply T in Ei. apply T in E. congruence.
Qed.
Lemma tracked_new A c k (l : list (nat * A)) h a : tracked (c k) l -> c k h = None -> tracked (set_cp c k h (length l) k) (l ++ [(h, a)]).
Proof.
  intros T N h' n. rewrite map_app. cbn [map fst]. rewrite nth_app_one, map_length. destruct (Nat.eq_dec h' h) as [-> | D].
  - rewrite set_cp_same. split; [intros E; injection E as <-; auto|]. intros [E|[-> _]]; auto. apply T in E. congruence.
  - rewrite set_cp_other, (T h' n) by auto. split; auto. intros [E|[_ E]]; auto. congruence.
Qed.

Section Extract.
Variables (MAXPF3 MAXPV2 : nat) (m : mstk) (X : nat -> xyz) (flatten : bool).
Section Vertex.
Variable co : xyz -> xyz.
Definition vok (Dv : nat -> Prop) (s : xstate) : Prop :=
  tracked (cp s MVERTEX) (x_verts (x_mesh s)) /\ (forall v p, In (v, p) (x_verts (x_mesh s)) -> p = co (X v) /\ Dv v).
Definition same_but_verts (s s' : xstate) : Prop :=
  grows (x_verts (x_mesh s)) (x_verts (x_mesh s')) /\ x_edges (x_mesh s') = x_edges (x_mesh s) /\ x_sfaces (x_mesh s') = x_sfaces (x_mesh s) /\ x_vfaces (x_mesh s') = x_vfaces (x_mesh s) /\
  x_regs (x_mesh s') = x_regs (x_mesh s) /\ forall k h, k <> MVERTEX -> cp s' k h = cp s k h.
Lemma sbv_refl s : same_but_verts s s. Proof. unfold same_but_verts. repeat split; auto. apply grows_refl. Qed.
Lemma sbv_trans a b c : same_but_verts a b -> same_but_verts b c -> same_but_verts a c.
Proof. intros (A1 & A2 & A3 & A4 & A5 & A6) (B1 & B2 & B3 & B4 & B5 & B6). unfold same_but_verts. repeat split; try congruence. eapply grows_trans; eauto. intros k h N. rewrite B6, A6; auto. Qed.
Lemma copy_vertex_ok Dv v s : vok Dv s -> Dv v -> let r := copy_vertex X co v s in vok Dv (fst r) /\ same_but_verts s (fst r) /\ nth_error (pv (x_mesh (fst r))) (snd r) = Some v.
Proof.
  intros [T C] D. unfold copy_vertex. destruct (cp s MVERTEX v) as [n|] eqn:E; cbn [fst snd].
  - split; [split; auto|]. split; [apply sbv_refl|]. apply T; auto.
  - cbn [x_mesh x_verts]. split; [split; cbn [x_mesh x_verts cp]|split].
    + apply tracked_new; auto.
    + intros v' p I. apply in_app_or in I as [I|[I|[]]]; auto. injection I as <- <-. auto.
    + unfold same_but_verts. cbn [x_mesh x_verts x_edges x_sfaces x_vfaces x_regs cp]. repeat split; auto. apply grows_one. intros k h N. apply set_cp_kind; auto.
    + unfold pv. cbn [x_verts]. rewrite map_app, <- (map_length fst (x_verts (x_mesh s))). apply nth_last.
Qed.
End Vertex.

(** ** Surfaces *)
Section Surface.
Variable Df : nat -> Prop.
Let De (e : nat) : Prop := exists f, Df f /\ e_of_f m e f.
Let Dv (v : nat) : Prop := exists e, De e /\ v_of_e m v e.
Record sok (s : xstate) : Prop := {
  so_v : vok (flat flatten) Dv s;
  so_e : tracked (cp s MEDGE) (x_edges (x_mesh s));
  so_d : forall e ab, In (e, ab) (x_edges (x_mesh s)) -> De e;
  so_ev : forall e a b, In (e, (a, b)) (x_edges (x_mesh s)) -> nth_error (pv (x_mesh s)) a = Some (fst (k_ev m e)) /\ nth_error (pv (x_mesh s)) b = Some (snd (k_ev m e)) }.
Definition sgrow (s s' : xstate) : Prop :=
  grows (x_verts (x_mesh s)) (x_verts (x_mesh s')) /\ grows (x_edges (x_mesh s)) (x_edges (x_mesh s')) /\ x_sfaces (x_mesh s') = x_sfaces (x_mesh s) /\ x_vfaces (x_mesh s') = x_vfaces (x_mesh s) /\
  x_regs (x_mesh s') = x_regs (x_mesh s) /\ forall h, cp s' MFACE h = cp s MFACE h.
Lemma sgrow_refl s : sgrow s s. Proof. unfold sgrow. repeat split; auto; apply grows_refl. Qed.
Lemma sgrow_trans a b c : sgrow a b -> sgrow b c -> sgrow a c.
Proof. intros (A1 & A2 & A3 & A4 & A5 & A6) (B1 & B2 & B3 & B4 & B5 & B6). unfold sgrow. repeat split; try congruence; try (eapply grows_trans; eauto). Qed.
Lemma pv_grow (x x' : xmesh) i v : grows (x_verts x) (x_verts x') -> nth_error (pv x) i = Some v -> nth_error (pv x') i = Some v.
Proof. intros G. apply grows_nth. apply grows_map; auto. Qed.
Lemma copy_edge_ok e s : sok s -> De e -> let r := copy_edge m X flatten e s in sok (fst r) /\ sgrow s (fst r) /\ nth_error (pe (x_mesh (fst r))) (snd r) = Some e.
Proof.
  intros [V T D E] De0. unfold copy_edge. destruct (cp s MEDGE e) as [n|] eqn:Q; cbn [fst snd].
  - split; [constructor; auto|]. split; [apply sgrow_refl|]. apply T; auto.
  - destruct (@copy_vertex_ok (flat flatten) Dv (fst (k_ev m e)) s V) as (V1 & G1 & N1); [exists e; split; auto; left; auto|]. destruct (copy_vertex X (flat flatten) (fst (k_ev m e)) s) as [s1 a]. cbn [fst snd] in *.
    destruct (@copy_vertex_ok (flat flatten) Dv (snd (k_ev m e)) s1 V1) as (V2 & G2 & N2); [exists e; split; auto; right; auto|]. destruct (copy_vertex X (flat flatten) (snd (k_ev m e)) s1) as [s2 b]. cbn [fst snd] in *.
    pose proof (sbv_trans G1 G2) as G. destruct G as (G & Ge & Gf & Gg & Gr & Gc). cbn [x_mesh].
    assert (T2 : tracked (cp s2 MEDGE) (x_edges (x_mesh s2))) by (intros h n; rewrite Gc, Ge by discriminate; apply T).
    split; [constructor; cbn [x_mesh x_edges x_verts cp]|split].
    + destruct V2 as [V2 C2]. split; cbn [x_mesh x_verts cp]; [|exact C2]. intros h n. rewrite set_cp_kind by discriminate. apply V2.
    + apply tracked_new; auto. rewrite Gc by discriminate. auto.
    + intros e' ab I. apply in_app_or in I as [I|[I|[]]]; [rewrite Ge in I; eapply D; eauto|]. injection I as <- <-. auto.
    + intros e' a' b' I. unfold pv in *. cbn [x_verts]. apply in_app_or in I as [I|[I|[]]].
      * rewrite Ge in I. destruct (E _ _ _ I) as [E1 E2]. split; eapply grows_nth; try apply grows_map; eauto.
      * injection I as <- <- <-. split; auto. destruct G2 as (G2 & _). eapply grows_nth; [apply grows_map; exact G2|exact N1].
    + unfold sgrow. cbn [x_mesh x_edges x_verts x_sfaces x_vfaces x_regs cp]. split; [exact G|]. split; [rewrite Ge; apply grows_one|]. split; [exact Gf|]. split; [exact Gg|]. split; [exact Gr|]. intros h. rewrite set_cp_kind by discriminate. apply Gc. discriminate.
    + unfold pe. cbn [x_edges]. rewrite map_app, <- (map_length fst (x_edges (x_mesh s2))). apply nth_last.
Qed.
Lemma copy_edges_ok f s : sok s -> Df f -> let r := thread (copy_edge_dir m X flatten) (k_fe m f) s in
  sok (fst r) /\ sgrow s (fst r) /\ Forall2 (copy_dir (pe (x_mesh (fst r)))) (snd r) (k_fe m f).
Proof.
  intros S F. cbn zeta.
  destruct (@thread_spec _ _ _ (copy_edge_dir m X flatten) sok sgrow (fun s ed ed' => copy_dir (pe (x_mesh s)) ed' ed) sgrow_refl sgrow_trans) with (l := k_fe m f) (s := s) as (H1 & H2 & H3); auto.
  - intros s1 s2 a b (_ & G & _) [E1 E2]. split; auto. eapply grows_nth; [apply grows_map; exact G|exact E1].
  - intros ed s1 I S1. unfold copy_edge_dir. destruct (@copy_edge_ok (fst ed) s1 S1) as (A1 & A2 & A3); [exists f; split; auto; apply in_map; auto|]. destruct (copy_edge m X flatten (fst ed) s1) as [s2 n]. cbn [fst snd] in *. split; [exact A1|]. split; [exact A2|]. split; [exact A3|reflexivity].
  - split; auto. split; auto. apply Forall2_sym in H3. exact H3.
Qed.
Definition sdone (src : list nat) (s : xstate) : Prop :=
  sok s /\ map fst (x_sfaces (x_mesh s)) = src /\ (forall f es, In (f, es) (x_sfaces (x_mesh s)) -> Forall2 (copy_dir (pe (x_mesh s))) es (k_fe m f)) /\
  (NoDup src -> tracked (cp s MFACE) (x_sfaces (x_mesh s))) /\ x_vfaces (x_mesh s) = [] /\ x_regs (x_mesh s) = [].
Lemma copy_sface_ok src f s : sdone src s -> Df f -> length (k_fe m f) <= MAXPV2 -> exists s', copy_sface MAXPV2 m X flatten f s = Ok s' /\ sdone (src ++ [f]) s'.
Proof.
  intros (S & Es & Fe & Tf & R1 & R2) D L. unfold copy_sface. destruct (Nat.ltb_spec MAXPV2 (length (k_fe m f))); [lia|]. destruct (@copy_edges_ok f s S D) as (S1 & G & F). cbn zeta in *.
  destruct (thread (copy_edge_dir m X flatten) (k_fe m f) s) as [s1 es]. cbn [fst snd] in *. destruct G as (Gv & Ge & Gf & Gg & Gr & Gc). eexists. split; [reflexivity|].
  destruct S1 as [V T D' E]. split; [|cbn [x_mesh x_sfaces x_vfaces x_regs]; split; [|split; [|split; [|split]]]].
  - constructor; cbn [x_mesh x_edges x_verts cp]; [| |exact D'|exact E].
    + destruct V as [V C]. split; cbn [x_mesh x_verts cp]; [|exact C]. intros h n. rewrite set_cp_kind by discriminate. apply V.
    + intros h n. rewrite set_cp_kind by discriminate. apply T.
  - rewrite map_app, Gf, Es. auto.
  - intros f' es' I. unfold pe in *. cbn [x_edges]. apply in_app_or in I as [I|[I|[]]].
    + rewrite Gf in I. apply Fe in I. eapply Forall2_imp; [|exact I]. intros a b [A1 A2]. split; auto. eapply grows_nth; [apply grows_map; exact Ge|exact A1].
    + injection I as <- <-. auto.
  - intros N. cbn [cp]. apply NoDup_remove in N as [N Nf]. rewrite app_nil_r in *. specialize (Tf N). rewrite Gf. apply tracked_new.
    + intros h n. rewrite Gc. apply Tf.
    + rewrite Gc. destruct (cp s MFACE f) as [n|] eqn:Q; auto. exfalso. apply Nf. apply Tf in Q. rewrite Es in Q. apply nth_error_In in Q. auto.
  - congruence.
  - congruence.
Qed.
Lemma sdone_surface src s : (forall f, Df f <-> In f src) -> sdone src s -> copied_surface m X (flat flatten) src (x_mesh s).
Proof.
  intros DD (S & Es & Fe & Tf & R1 & R2). destruct S as [V T D E]. destruct V as [Tv C]. constructor; auto.
  - apply (tracked_nodup T).
  - apply (tracked_nodup Tv).
  - intros e. split.
    + intros I. apply in_map_iff in I as ([e' ab] & <- & I). apply D in I as (f & F & I). exists f. split; [apply DD; auto|auto].
    + intros (f & I & Ee). rewrite <- Es in I. apply in_map_iff in I as ([f' es] & Q & I). cbn [fst] in Q. subst f'. apply Fe in I. unfold e_of_f in Ee. clear - I Ee.
      induction I as [|a b l l' [A1 A2] I IH]; [destruct Ee|]. destruct Ee as [<- | Ee]; auto. apply nth_error_In in A1. auto.
  - intros v. split.
    + intros I. apply in_map_iff in I as ([v' p] & <- & I). apply C in I as [_ (e & (f & F & Fe') & Ve)]. exists e. split; auto.
      apply DD in F. rewrite <- Es in F. apply in_map_iff in F as ([f' es] & Q & I). cbn [fst] in Q. subst f'. apply Fe in I. unfold e_of_f in Fe'. clear - I Fe'.
      induction I as [|a b l l' [A1 A2] I IH]; [destruct Fe'|]. destruct Fe' as [<- | Ee]; auto. apply nth_error_In in A1. auto.
    + intros (e & I & Ve). apply in_map_iff in I as ([e' [a b]] & Q & I). cbn [fst] in Q. subst e'. apply E in I as [E1 E2]. destruct Ve as [-> | ->]; eapply nth_error_In; eauto.
  - intros v p I. apply C in I. tauto.
Qed.
End Surface.
Lemma none_tracked A c : (forall h, c h = None) -> tracked c (@nil (nat * A)).
Proof. intros H h n. rewrite H. destruct n; split; discriminate. Qed.
Lemma extract_surface src : (forall f, In f src -> length (k_fe m f) <= MAXPV2) ->
  exists s, extract_mstk_mesh MAXPF3 MAXPV2 m X flatten MFACE false src = Ok s /\ copied_surface m X (flat flatten) src (x_mesh s) /\
    tracked (cp s MVERTEX) (x_verts (x_mesh s)) /\ tracked (cp s MEDGE) (x_edges (x_mesh s)) /\ (NoDup src -> tracked (cp s MFACE) (x_sfaces (x_mesh s))).
Proof.
  intros L. unfold extract_mstk_mesh. rewrite Bool.andb_false_r.
  assert (H : forall l s pre, (forall f, In f l -> In f src) -> sdone (fun f => In f src) pre s -> exists s', foldM l (copy_sface MAXPV2 m X flatten) s = Ok s' /\ sdone (fun f => In f src) (pre ++ l) s').
  { induction l as [|f l IH]; intros s pre I S; [exists s; rewrite app_nil_r; auto|]. destruct (@copy_sface_ok _ pre f s S) as (s1 & E1 & S1); [apply I; left; auto|apply L, I; left; auto|].
    destruct (IH s1 (pre ++ [f])) as (s2 & E2 & S2); auto; [intros; apply I; right; auto|]. exists s2. cbn [foldM]. rewrite E1. cbn [bind]. split; auto. rewrite <- app_assoc in S2. exact S2. }
  destruct (H src (XState no_xmesh (fun _ _ => None)) []) as (s & E & S); auto.
  - split; [constructor; cbn|]; [|apply none_tracked; auto|intros ? ? []|intros ? ? ? []|].
    + split; [apply none_tracked; auto|intros ? ? []].
    + cbn. split; [reflexivity|]. split; [intros ? ? []|]. split; [intros _; apply none_tracked; auto|auto].
  - exists s. split; auto. cbn [app] in S. split; [apply (sdone_surface (Df := fun f => In f src)); [tauto|exact S]|]. destruct S as ([V T D Q] & _ & _ & Tf & _). split; [apply V|]. split; auto.
Qed.

(** ** Volumes *)
Section Volume.
Variable Dr : nat -> Prop.
Let Df (f : nat) : Prop := exists r, Dr r /\ f_of_r m f r.
Let Dv (v : nat) : Prop := exists f, Df f /\ In v (k_fv m f).
Record tok (s : xstate) : Prop := {
  to_v : vok (fun p => p) Dv s;
  to_f : tracked (cp s MFACE) (x_vfaces (x_mesh s));
  to_d : forall f vs, In (f, vs) (x_vfaces (x_mesh s)) -> Df f;
  to_fv : forall f vs, In (f, vs) (x_vfaces (x_mesh s)) -> Forall2 (fun v' v => nth_error (pv (x_mesh s)) v' = Some v) vs (k_fv m f) }.
Definition tgrow (s s' : xstate) : Prop :=
  grows (x_verts (x_mesh s)) (x_verts (x_mesh s')) /\ grows (x_vfaces (x_mesh s)) (x_vfaces (x_mesh s')) /\ x_edges (x_mesh s') = x_edges (x_mesh s) /\ x_sfaces (x_mesh s') = x_sfaces (x_mesh s) /\
  x_regs (x_mesh s') = x_regs (x_mesh s) /\ forall h, cp s' MREGION h = cp s MREGION h.
Lemma tgrow_refl s : tgrow s s. Proof. unfold tgrow. split; [apply grows_refl|]. split; [apply grows_refl|]. auto. Qed.
Lemma tgrow_trans a b c : tgrow a b -> tgrow b c -> tgrow a c.
Proof.
  intros (A1 & A2 & A3 & A4 & A5 & A6) (B1 & B2 & B3 & B4 & B5 & B6). unfold tgrow. split; [eapply grows_trans; eauto|]. split; [eapply grows_trans; eauto|].
  split; [congruence|]. split; [congruence|]. split; [congruence|]. intros h. rewrite B6. auto.
Qed.
Lemma copy_vface_ok f s : tok s -> Df f -> length (k_fv m f) <= MAXPV2 ->
  exists s' n, copy_vface MAXPV2 m X f s = Ok (s', n) /\ tok s' /\ tgrow s s' /\ nth_error (pvf (x_mesh s')) n = Some f.
Proof.
  intros [V T D F] Df0 L. unfold copy_vface. destruct (cp s MFACE f) as [n|] eqn:Q.
  - exists s, n. split; auto. split; [constructor; auto|]. split; [apply tgrow_refl|]. apply T; auto.
  - destruct (Nat.ltb_spec MAXPV2 (length (k_fv m f))); [lia|].
    destruct (@thread_spec _ _ _ (copy_vertex X (fun p => p)) (vok (fun p => p) Dv) same_but_verts (fun s v n => nth_error (pv (x_mesh s)) n = Some v) sbv_refl sbv_trans) with (l := k_fv m f) (s := s) as (V1 & G & N); auto.
    { intros s1 s2 a b (G & _). apply grows_nth. apply grows_map; auto. }
    { intros v s1 I V1. apply (@copy_vertex_ok (fun p => p) Dv); auto. exists f. auto. }
    destruct (thread (copy_vertex X (fun p => p)) (k_fv m f) s) as [s1 vs]. cbn [fst snd] in *. destruct G as (Gv & Ge & Gs & Gf & Gr & Gc). apply Forall2_sym in N. cbn [x_mesh].
    eexists _, _. split; [reflexivity|]. split; [constructor; cbn [x_mesh x_vfaces x_verts cp]|split].
    + destruct V1 as [V1 C1]. split; cbn [x_mesh x_verts cp]; [|exact C1]. intros h n. rewrite set_cp_kind by discriminate. apply V1.
    + apply tracked_new; [|rewrite Gc by discriminate; auto]. intros h n. rewrite Gc, Gf by discriminate. apply T.
    + intros f' vs' I. apply in_app_or in I as [I|[I|[]]]; [rewrite Gf in I; eapply D; eauto|]. injection I as <- <-. auto.
    + intros f' vs' I. unfold pv in *. cbn [x_verts]. apply in_app_or in I as [I|[I|[]]].
      * rewrite Gf in I. apply F in I. eapply Forall2_imp; [|exact I]. intros a b A. eapply grows_nth; [apply grows_map; exact Gv|exact A].
      * injection I as <- <-. exact N.
    + unfold tgrow. cbn [x_mesh x_edges x_verts x_sfaces x_vfaces x_regs cp]. split; [exact Gv|]. split; [rewrite Gf; apply grows_one|]. split; [exact Ge|]. split; [exact Gs|]. split; [exact Gr|].
      intros h. rewrite set_cp_kind by discriminate. apply Gc. discriminate.
    + unfold pvf. cbn [x_mesh x_vfaces]. rewrite map_app, <- (map_length fst (x_vfaces (x_mesh s1))). apply nth_last.
Qed.
Lemma copy_vfaces_ok r fs s : tok s -> Dr r -> (forall fd, In fd fs -> In fd (k_rf m r) /\ length (k_fv m (fst fd)) <= MAXPV2) ->
  exists s' fs', copy_vfaces MAXPV2 m X fs s = Ok (s', fs') /\ tok s' /\ tgrow s s' /\ Forall2 (copy_dir (pvf (x_mesh s'))) fs' fs.
Proof.
  intros S0 D. unfold copy_vfaces. assert (H : forall l pre acc s, tok s -> Forall2 (copy_dir (pvf (x_mesh s))) acc pre -> (forall fd, In fd l -> In fd (k_rf m r) /\ length (k_fv m (fst fd)) <= MAXPV2) ->
    exists s' fs', foldM l (fun fd a => r0 <- copy_vface MAXPV2 m X (fst fd) (fst a) ;; Ok (fst r0, snd a ++ [(snd r0, snd fd)])) (s, acc) = Ok (s', fs') /\ tok s' /\ tgrow s s' /\
      Forall2 (copy_dir (pvf (x_mesh s'))) fs' (pre ++ l)).
  { induction l as [|fd l IH]; intros pre acc s1 S1 A H; cbn [foldM].
    - exists s1, acc. rewrite app_nil_r. split; auto. split; auto. split; auto. apply tgrow_refl.
    - destruct (H fd (or_introl eq_refl)) as [I L]. cbn [fst snd]. destruct (@copy_vface_ok (fst fd) s1 S1) as (s2 & n & E & S2 & G & N); auto. { exists r. split; auto. apply in_map; auto. }
      rewrite E. cbn [bind fst snd]. destruct (IH (pre ++ [fd]) (acc ++ [(n, snd fd)]) s2 S2) as (s3 & fs' & E3 & S3 & G3 & F3).
      + apply Forall2_app; [|constructor; [split; auto|constructor]]. eapply Forall2_imp; [|exact A]. intros a b [A1 A2]. split; auto. destruct G as (_ & G & _). eapply grows_nth; [apply grows_map; exact G|exact A1].
      + intros fd' I'. apply H. right; auto.
      + exists s3, fs'. rewrite <- app_assoc in F3. split; auto. split; auto. split; auto. eapply tgrow_trans; eauto. }
  intros I. destruct (H fs [] [] s S0 (Forall2_nil _) I) as (s' & fs' & E & S1 & G & F). exists s', fs'. auto.
Qed.
Definition tdone (src : list nat) (s : xstate) : Prop :=
  tok s /\ map fst (x_regs (x_mesh s)) = src /\ (forall r fs, In (r, fs) (x_regs (x_mesh s)) -> Forall2 (copy_dir (pvf (x_mesh s))) fs (k_rf m r)) /\
  (NoDup src -> tracked (cp s MREGION) (x_regs (x_mesh s))) /\ x_edges (x_mesh s) = [] /\ x_sfaces (x_mesh s) = [].
Definition small_region (r : nat) : Prop := length (k_rf m r) <= MAXPF3 /\ forall f, f_of_r m f r -> length (k_fv m f) <= MAXPV2.
Lemma copy_region_ok src r s : tdone src s -> Dr r -> small_region r -> exists s', copy_region MAXPF3 MAXPV2 m X r s = Ok s' /\ tdone (src ++ [r]) s'.
Proof.
  intros (S & Es & Rf & Tr & R1 & R2) D [L1 L2]. unfold copy_region. destruct (Nat.ltb_spec MAXPF3 (length (k_rf m r))); [lia|].
  destruct (@copy_vfaces_ok r (k_rf m r) s S D) as (s1 & fs & E & S1 & G & F). { intros fd I. split; auto. apply L2. apply in_map; auto. }
  rewrite E. cbn [bind fst snd]. destruct G as (Gv & Gf & Ge & Gs & Gr & Gc). eexists. split; [reflexivity|]. destruct S1 as [V T D' Fv].
  split; [|cbn [x_mesh x_sfaces x_vfaces x_edges x_regs]; split; [|split; [|split; [|split]]]].
  - constructor; cbn [x_mesh x_vfaces x_verts cp]; [| |exact D'|exact Fv].
    + destruct V as [V C]. split; cbn [x_mesh x_verts cp]; [|exact C]. intros h n. rewrite set_cp_kind by discriminate. apply V.
    + intros h n. rewrite set_cp_kind by discriminate. apply T.
  - rewrite map_app, Gr, Es. auto.
  - intros r' fs' I. unfold pvf in *. cbn [x_vfaces]. apply in_app_or in I as [I|[I|[]]].
    + rewrite Gr in I. apply Rf in I. eapply Forall2_imp; [|exact I]. intros a b [A1 A2]. split; auto. eapply grows_nth; [apply grows_map; exact Gf|exact A1].
    + injection I as <- <-. auto.
  - intros N. cbn [cp]. apply NoDup_remove in N as [N Nf]. rewrite app_nil_r in *. specialize (Tr N). rewrite Gr. apply tracked_new.
    + intros h n. rewrite Gc. apply Tr.
    + rewrite Gc. destruct (cp s MREGION r) as [n|] eqn:Q; auto. exfalso. apply Nf. apply Tr in Q. rewrite Es in Q. apply nth_error_In in Q. auto.
  - congruence.
  - congruence.
Qed.
Lemma tdone_volume src s : (forall r, Dr r <-> In r src) -> tdone src s -> copied_volume m X src (x_mesh s).
Proof.
  intros DD (S & Es & Rf & Tr & R1 & R2). destruct S as [V T D F]. destruct V as [Tv C].
  assert (If : forall f, Df f -> In f (pvf (x_mesh s))).
  { intros f (r & I & Ff). apply DD in I. rewrite <- Es in I. apply in_map_iff in I as ([r' fs] & Q & I). cbn [fst] in Q. subst r'. apply Rf in I. unfold f_of_r in Ff. clear - I Ff.
    induction I as [|a b l l' [A1 A2] I IH]; [destruct Ff|]. destruct Ff as [<- | Ee]; auto. apply nth_error_In in A1. auto. }
  constructor; auto.
  - apply (tracked_nodup T).
  - apply (tracked_nodup Tv).
  - intros f. split.
    + intros I. apply in_map_iff in I as ([f' vs] & <- & I). apply D in I as (r & R & I). exists r. split; [apply DD; auto|auto].
    + intros (r & I & Ff). apply If. exists r. split; auto. apply DD; auto.
  - intros v. split.
    + intros I. apply in_map_iff in I as ([v' p] & <- & I). apply C in I as [_ (f & Ff & Iv)]. exists f. split; auto.
    + intros (f & I & Iv). apply in_map_iff in I as ([f' vs] & Q & I). cbn [fst] in Q. subst f'. apply F in I. clear - I Iv. induction I as [|a b l l' A I IH]; [destruct Iv|].
      destruct Iv as [-> | Iv]; auto. apply nth_error_In in A. auto.
  - intros v p I. apply C in I. tauto.
Qed.
End Volume.
Lemma extract_volume src : flatten = false -> (forall r, In r src -> small_region r) ->
  exists s, extract_mstk_mesh MAXPF3 MAXPV2 m X flatten MREGION false src = Ok s /\ copied_volume m X src (x_mesh s) /\
    tracked (cp s MVERTEX) (x_verts (x_mesh s)) /\ tracked (cp s MFACE) (x_vfaces (x_mesh s)) /\ (NoDup src -> tracked (cp s MREGION) (x_regs (x_mesh s))).
Proof.
  intros Fl L. unfold extract_mstk_mesh. rewrite Fl. cbn [andb].
  assert (H : forall l s pre, (forall f, In f l -> In f src) -> tdone (fun f => In f src) pre s -> exists s', foldM l (copy_region MAXPF3 MAXPV2 m X) s = Ok s' /\ tdone (fun f => In f src) (pre ++ l) s').
  { induction l as [|f l IH]; intros s pre I S; [exists s; rewrite app_nil_r; auto|]. destruct (@copy_region_ok _ pre f s S) as (s1 & E1 & S1); [apply I; left; auto|apply L, I; left; auto|].
    destruct (IH s1 (pre ++ [f])) as (s2 & E2 & S2); auto; [intros; apply I; right; auto|]. exists s2. cbn [foldM]. rewrite E1. cbn [bind]. split; auto. rewrite <- app_assoc in S2. exact S2. }
  destruct (H src (XState no_xmesh (fun _ _ => None)) []) as (s & E & S); auto.
  - split; [constructor; cbn|]; [|apply none_tracked; auto|intros ? ? []|intros ? ? []|].
    + split; [apply none_tracked; auto|intros ? ? []].
    + cbn. split; [reflexivity|]. split; [intros ? ? []|]. split; [intros _; apply none_tracked; auto|auto].
  - exists s. split; auto. cbn [app] in S. split; [apply (tdone_volume (Dr := fun f => In f src)); [tauto|exact S]|]. destruct S as ([V T D Q] & _ & _ & Tf & _). split; [apply V|]. split; auto.
Qed.
End Extract.
