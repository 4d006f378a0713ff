(** C100: parents of ghosts in a parallel extraction. *)
From Verif Require Import Base Loop MeshSet_proofs MstkMesh MstkParents Props_Cache.
Set Implicit Arguments. Unset Strict Implicit.

(** * Small specification *)
(** every rank's own entities have parents on the rank; ghosts are not own entities, appear once, and MSTK marks their originals *)
Record sound_world (W : list (brank * xrank)) : Prop := Sound_world {
  sw_own : forall q b x k h, nth_error W q = Some (b, x) -> In h (x_own x k) -> exists u, x_parent x k h = Some u /\ In u (b_ents b k);
  sw_once : forall q b x k, nth_error W q = Some (b, x) -> NoDup (x_own x k ++ map fst (x_ghosts x k));
  sw_ghost : forall q b x k h p e, nth_error W q = Some (b, x) -> In (h, (p, e)) (x_ghosts x k) ->
    exists b' x', nth_error W p = Some (b', x') /\ In e (x_own x' k) /\ x_overlap x' k e = true
}.
(** the global id, in the original mesh, of the parent of entity [e] that rank [p] made *)
Definition parent_id (W : list (brank * xrank)) (p : nat) (k : mkind) (e g : nat) : Prop :=
  exists b x u, nth_error W p = Some (b, x) /\ x_parent x k e = Some u /\ g = b_gid b k u.
(** a rank has the entity with a global id *)
Definition has_entity (b : brank) (k : mkind) (g : nat) : Prop := exists u, In u (b_ents b k) /\ b_gid b k u = g.

(** * Proofs *)
Lemma mapM_all' A B (f : A -> outcome B) l : (forall x, In x l -> exists y, f x = Ok y) -> exists r, mapM f l = Ok r.
Proof.
  induction l as [|a l IH]; intros H. { exists []. auto. } destruct (H a (or_introl eq_refl)) as [y Ey]. destruct IH as (r & Er). { intros x Hx. apply H. simpl. auto. }
  exists (y :: r). simpl. rewrite Ey, Er. auto.
Qed.
Lemma mapM_F2 A B (f : A -> outcome B) l : forall r, mapM f l = Ok r -> Forall2 (fun x y => f x = Ok y) l r.
Proof.
  induction l as [|a l IH]; intros r E; simpl in E; [injection E as <-; constructor|]. apply bind_inv in E as (y & E1 & E). apply bind_inv in E as (r' & E2 & E). injection E as <-.
  constructor; auto.
Qed.
Lemma F2_nth A B (R : A -> B -> Prop) l l' : Forall2 R l l' -> forall i x, nth_error l i = Some x -> exists y, nth_error l' i = Some y /\ R x y.
Proof. induction 1 as [|a b l l' H F IH]; intros [|i] x E; simpl in *; try discriminate; [injection E as <-; eauto|eauto]. Qed.
Lemma F2_in A B (R : A -> B -> Prop) l l' : Forall2 R l l' -> forall y, In y l' -> exists x, In x l /\ R x y.
Proof. induction 1 as [|a b l l' H F IH]; intros y E; simpl in *; [tauto|]. destruct E as [<-|E]; [eauto|]. destruct (IH y E) as (x & ? & ?). eauto. Qed.
Lemma F2_in' A B (R : A -> B -> Prop) l l' : Forall2 R l l' -> forall x, In x l -> exists y, In y l' /\ R x y.
Proof. induction 1 as [|a b l l' H F IH]; intros y E; simpl in *; [tauto|]. destruct E as [<-|E]; [eauto|]. destruct (IH y E) as (x & ? & ?). eauto. Qed.
Lemma by_kind (f : mkind -> outcome (list (nat * nat))) T : mapM (fun k => t <- f k ;; Ok (k, t)) kinds = Ok T -> forall k, f k = Ok (gids_of T k).
Proof.
  unfold kinds. cbn [mapM]. destruct (f MVERTEX) eqn:E1, (f MEDGE) eqn:E2, (f MFACE) eqn:E3, (f MREGION) eqn:E4; cbn [bind]; intros E; try discriminate. injection E as <-.
  intros []; auto.
Qed.
Lemma by_kind_ok (f : mkind -> outcome (list (nat * nat))) : (forall k, exists t, f k = Ok t) -> exists T, mapM (fun k => t <- f k ;; Ok (k, t)) kinds = Ok T.
Proof. intros H. apply mapM_all'. intros k _. destruct (H k) as [t E]. rewrite E. simpl. eauto. Qed.
Lemma att_val_in (t : list (nat * nat)) h g : NoDup (map fst t) -> In (h, g) t -> att_val t h = g.
Proof.
  unfold att_val. induction t as [|[a b] t IH]; intros N H; [destruct H|]. inversion N; subst. simpl. destruct H as [H|H].
  - injection H as -> ->. rewrite Nat.eqb_refl. auto.
  - destruct (Nat.eqb_spec a h) as [->|]; [|apply IH; auto]. exfalso. apply (in_map fst) in H. auto.
Qed.
Lemma find_fst_in (t : list (nat * nat)) h g : NoDup (map fst t) -> In (h, g) t -> find (fun e => fst e =? h) t = Some (h, g).
Proof.
  induction t as [|[a b] t IH]; intros N H; [destruct H|]. inversion N; subst. simpl. destruct H as [H|H].
  - injection H as -> ->. rewrite Nat.eqb_refl. auto.
  - destruct (Nat.eqb_spec a h) as [->|]; [|apply IH; auto]. exfalso. apply (in_map fst) in H. auto.
Qed.
Lemma find_fst_none (t : list (nat * nat)) h : ~ In h (map fst t) -> find (fun e => fst e =? h) t = None.
Proof. induction t as [|[a b] t IH]; intros N; auto. simpl in *. destruct (Nat.eqb_spec a h) as [->|]; [tauto|]. apply IH. tauto. Qed.
Lemma F2_fst A C (f : A -> outcome (nat * C)) (key : A -> nat) l t : Forall2 (fun x y => f x = Ok y) l t -> (forall x y, f x = Ok y -> fst y = key x) -> map fst t = map key l.
Proof. induction 1; intros K; simpl; auto. rewrite (K _ _ H), IHForall2; auto. Qed.

Section World.
Variable W : list (brank * xrank).
Hypothesis S : sound_world W.
Lemma gids_ok : exists G, mapM rank_gids W = Ok G.
Proof.
  apply mapM_all'. intros [b x] H. apply In_nth_error in H as [q H]. apply by_kind_ok. intros k. cbn [fst snd]. unfold set_gids. apply mapM_all'. intros h Hh. apply filter_In in Hh as [Hh _].
  destruct (sw_own S H Hh) as (u & E & _). rewrite E. eauto.
Qed.
Lemma att_of_master G p k e b x : mapM rank_gids W = Ok G -> nth_error W p = Some (b, x) -> In e (x_own x k) -> x_overlap x k e = true ->
  exists T u, nth_error G p = Some T /\ x_parent x k e = Some u /\ In u (b_ents b k) /\ att_val (gids_of T k) e = b_gid b k u.
Proof.
  intros E H He Ho. destruct (F2_nth (mapM_F2 E) H) as (T & HT & ET). destruct (sw_own S H He) as (u & Eu & Iu). exists T, u. split; auto. split; auto. split; auto.
  pose proof (by_kind ET k) as Ek. cbn [fst snd] in Ek. unfold set_gids in Ek. pose proof (mapM_F2 Ek) as F.
  assert (Q : map fst (gids_of T k) = map (fun h => h) (filter (x_overlap x k) (x_own x k))).
  { eapply F2_fst; [exact F|]. intros h y. cbv beta. destruct (x_parent x k h); [|discriminate]. intros Q. injection Q as <-. auto. }
  rewrite map_id in Q. assert (N := sw_once S k H).
  apply att_val_in.
  - rewrite Q. apply NoDup_filter. apply NoDup_app_iff in N. tauto.
  - destruct (F2_in' F (x := e)) as (y & Iy & Ey); [apply filter_In; auto|]. cbv beta in Ey. rewrite Eu in Ey. injection Ey as <-. auto.
Qed.
Lemma from_gid_some b k g u : from_gid b k g = Some u -> In u (b_ents b k) /\ b_gid b k u = g.
Proof. intros E. apply find_some in E as [A B]. apply Nat.eqb_eq in B. auto. Qed.
Lemma from_gid_has b k g : has_entity b k g -> exists u, from_gid b k g = Some u.
Proof.
  intros (u & A & B). unfold from_gid. destruct (find _ _) eqn:F; eauto. eapply find_none in F; [|exact A]. cbv beta in F. apply Nat.eqb_neq in F. congruence.
Qed.
(** one ghost *)
Lemma ghost_step G q b x k h p e : mapM rank_gids W = Ok G -> nth_error W q = Some (b, x) -> In (h, (p, e)) (x_ghosts x k) ->
  exists g, parent_id W p k e g /\ (T <- rd G p ;; match from_gid b k (att_val (gids_of T k) e) with Some u => Ok (h, u) | None => Thrown end) =
    match from_gid b k g with Some u => Ok (h, u) | None => Thrown end.
Proof.
  intros E H Hg. destruct (sw_ghost S H Hg) as (b' & x' & Hp & He & Ho). destruct (att_of_master E Hp He Ho) as (T & u & HT & Eu & _ & Ev).
  exists (b_gid b' k u). split; [exists b', x', u; auto|]. unfold rd. rewrite HT. cbn [bind]. rewrite Ev. auto.
Qed.
End World.
Lemma parent_id_unique W p k e g g' : parent_id W p k e g -> parent_id W p k e g' -> g = g'.
Proof. intros (b & x & u & A & B & ->) (b' & x' & u' & A' & B' & ->). congruence. Qed.

(** * C100 *)
(** whenever it succeeds, every own entity keeps its parent and every ghost's parent is this rank's copy of the parent of the ghost's original *)
Theorem c100_parents : forall W R, sound_world W -> build_parents W = Ok R -> forall q b x, nth_error W q = Some (b, x) ->
  exists T, nth_error R q = Some T /\
    (forall k h, In h (x_own x k) -> parent_after x T k h = x_parent x k h) /\
    (forall k h p e, In (h, (p, e)) (x_ghosts x k) -> exists u g, parent_after x T k h = Some u /\ In u (b_ents b k) /\ b_gid b k u = g /\ parent_id W p k e g).
Proof.
  intros W R S E q b x H. unfold build_parents in E. apply bind_inv in E as (G & EG & E).
  destruct (F2_nth (mapM_F2 E) H) as (T & HT & ET). exists T. split; auto.
  assert (K : forall k, Forall2 (fun g y => (let '(h, (p, e)) := g in T <- rd G p ;; match from_gid b k (att_val (gids_of T k) e) with Some u => Ok (h, u) | None => Thrown end) = Ok y)
    (x_ghosts x k) (gids_of T k)).
  { intros k. apply mapM_F2. apply (by_kind ET k). }
  assert (Q : forall k, map fst (gids_of T k) = map fst (x_ghosts x k)).
  { intros k. eapply F2_fst; [exact (K k)|]. intros (h & p & e) y Ey. cbv beta in Ey. apply bind_inv in Ey as (T' & _ & Ey). destruct (from_gid b k _); [|discriminate]. injection Ey as <-. auto. }
  split.
  - intros k h Hh. unfold parent_after. rewrite find_fst_none; auto. rewrite Q. intros Hg. pose proof (sw_once S k H) as N'. clear -N' Hh Hg. induction (x_own x k) as [|a l IH]; [destruct Hh|].
    inversion N'; subst. destruct Hh as [->|Hh]; [|auto]. apply H1. apply in_app_iff. auto.
  - intros k h p e Hg. destruct (F2_in' (K k) Hg) as (y & Iy & Ey). cbv beta in Ey. destruct (ghost_step S EG H Hg) as (g & Pg & Es). rewrite Es in Ey.
    destruct (from_gid b k g) as [u|] eqn:Eu; [|discriminate]. injection Ey as <-. apply from_gid_some in Eu as [I1 I2]. exists u, g.
    split; [|auto]. unfold parent_after. rewrite (@find_fst_in _ h u); auto. rewrite Q. pose proof (sw_once S k H) as N. apply NoDup_app_iff in N. tauto.
Qed.
(** it succeeds if every rank has the parents of its ghosts, and throws otherwise *)
Theorem c100_outcome : forall W, sound_world W ->
  let complete := forall q b x k h p e g, nth_error W q = Some (b, x) -> In (h, (p, e)) (x_ghosts x k) -> parent_id W p k e g -> has_entity b k g in
  (complete -> exists R, build_parents W = Ok R) /\ (~ complete -> build_parents W = Thrown).
Proof.
  intros W S complete. destruct (gids_ok S) as [G EG]. unfold build_parents. rewrite EG. cbn [bind].
  set (step := fun (b : brank) (k : mkind) (g : nat * (nat * nat)) => let '(h, (p, e)) := g in T <- rd G p ;; match from_gid b k (att_val (gids_of T k) e) with Some u => Ok (h, u) | None => Thrown end).
  assert (St : forall q b x k h p e, nth_error W q = Some (b, x) -> In (h, (p, e)) (x_ghosts x k) ->
    exists g, parent_id W p k e g /\ ((has_entity b k g /\ exists y, step b k (h, (p, e)) = Ok y) \/ (~ has_entity b k g /\ step b k (h, (p, e)) = Thrown))).
  { intros q b x k h p e H Hg. destruct (ghost_step S EG H Hg) as (g & Pg & Es). exists g. split; auto. unfold step. rewrite Es.
    destruct (from_gid b k g) as [u|] eqn:Eu.
    - left. apply from_gid_some in Eu as [A B]. split; [exists u; auto|eauto].
    - right. split; auto. intros Hh. apply from_gid_has in Hh as [u Eu']. congruence. }
  split.
  - intros C. apply mapM_all'. intros [b x] Hx. apply In_nth_error in Hx as [q H]. apply by_kind_ok. intros k. unfold ghost_parents. apply mapM_all'. intros (h & p & e) Hg.
    destruct (St q b x k h p e H Hg) as (g & Pg & [[_ ?]|[N _]]); auto. exfalso. apply N. apply (C q b x k h p e g); auto.
  - intros N. assert (M : forall A B (f : A -> outcome B) l, (forall a, In a l -> (exists y, f a = Ok y) \/ f a = Thrown) -> (exists r, mapM f l = Ok r) \/ mapM f l = Thrown).
    { intros A B f l. induction l as [|a l IH]; intros F; simpl; [eauto|]. destruct (F a (or_introl eq_refl)) as [[y ->]| ->]; simpl; auto.
      destruct IH as [[r ->]| ->]; simpl; eauto. intros z Hz. apply F. simpl. auto. }
    destruct (M _ _ (rank_parents G) W) as [[R ER]|ER]; auto.
    + intros [b x] Hx. apply In_nth_error in Hx as [q H]. apply M. intros k _. cbn [fst snd].
      destruct (M _ _ (step b k) (x_ghosts x k)) as [[t Et]|Et].
      * intros (h & p & e) Hg. destruct (St q b x k h p e H Hg) as (g & _ & [[_ ?]|[_ ?]]); auto.
      * left. unfold ghost_parents. fold (step b k). change (mapM (step b k) (x_ghosts x k)) with (mapM (step b k) (x_ghosts x k)). rewrite Et. simpl. eauto.
      * right. unfold ghost_parents. fold (step b k). rewrite Et. auto.
    + exfalso. apply N. intros q b x k h p e g H Hg Pg. destruct (F2_nth (mapM_F2 ER) H) as (T & _ & ET). pose proof (by_kind ET k) as Ek. cbn [fst snd] in Ek.
      destruct (F2_in' (mapM_F2 Ek) Hg) as (y & _ & Ey). destruct (St q b x k h p e H Hg) as (g' & Pg' & [[Hh _]|[_ Et]]); [rewrite (parent_id_unique Pg Pg'); auto|].
      exfalso. unfold step in Et. cbv beta iota in Ey. rewrite Et in Ey. discriminate.
Qed.

(** ** Enough ghost layers *)
(** the elements within n layers of rank q: its own, then those that share a vertex with one that is nearer *)
Inductive near (src : nat -> Prop) (verts : nat -> list nat) (owner : nat -> nat) (q : nat) : nat -> nat -> Prop :=
| near_own c : src c -> owner c = q -> near src verts owner q 0 c
| near_stay n c : near src verts owner q n c -> near src verts owner q (S n) c
| near_next n c c' v : near src verts owner q n c -> src c' -> In v (verts c) -> In v (verts c') -> near src verts owner q (S n) c'.
Lemma near_le (src : nat -> Prop) (verts : nat -> list nat) (owner : nat -> nat) q n c : near src verts owner q n c -> forall m, n <= m -> near src verts owner q m c.
Proof.
  intros H m L. induction L as [|m L IH]; auto. apply near_stay. auto.
Qed.
Lemma near_cells (src : nat -> Prop) (verts : nat -> list nat) (owner : nat -> nat) (cverts : nat -> list nat) (cowner cell_of : nat -> nat) q n c : (forall e, src e -> incl (verts e) (cverts (cell_of e))) ->
  (forall e, src e -> owner e = cowner (cell_of e)) -> near src verts owner q n c -> src c /\ near (fun _ => True) cverts cowner q n (cell_of c).
Proof.
  intros V O H. induction H as [c Hs Ho|n c H [Hs IH]|n c c' v H [Hs IH] Hs' Hv Hv'].
  - split; auto. apply near_own; auto. rewrite <- O; auto.
  - split; auto. apply near_stay. auto.
  - split; auto. apply near_next with (c := cell_of c) (v := v); auto; apply V; auto.
Qed.
(** [src]: the extracted elements - cells, or faces, each on a cell of the same rank ([cell_of]).  If the mesh has L layers of ghost cells and the new mesh
    no more than that, all parents are found. *)
Theorem c100_enough_layers : forall W (src : nat -> Prop) (verts : nat -> list nat) (owner : nat -> nat) (closure : nat -> mkind -> list nat) (cell_of : nat -> nat) (cverts : nat -> list nat) (cowner : nat -> nat)
  (cclosure : nat -> mkind -> list nat) L L', sound_world W -> L' <= L ->
  (forall e, src e -> incl (verts e) (cverts (cell_of e)) /\ owner e = cowner (cell_of e) /\ forall k, incl (closure e k) (cclosure (cell_of e) k)) ->
  (forall q b x c k g, nth_error W q = Some (b, x) -> near (fun _ => True) cverts cowner q L c -> In g (cclosure c k) -> has_entity b k g) ->
  (forall q b x k h p e g, nth_error W q = Some (b, x) -> In (h, (p, e)) (x_ghosts x k) -> parent_id W p k e g ->
     exists c, near src verts owner q L' c /\ In g (closure c k)) ->
  exists R, build_parents W = Ok R.
Proof.
  intros W src verts owner closure cell_of cverts cowner cclosure L L' S Le C B X. apply (c100_outcome S). intros q b x k h p e g H Hg Pg.
  destruct (X q b x k h p e g H Hg Pg) as (c & Hn & Hc). destruct (near_cells (cverts := cverts) (cowner := cowner) (cell_of := cell_of) (fun e He => proj1 (C e He)) (fun e He => proj1 (proj2 (C e He))) Hn) as [Sc Nc].
  apply (B q b x (cell_of c) k g H). - eapply near_le; eauto. - apply (proj2 (proj2 (C c Sc)) k). auto.
Qed.

(** ** A row of three cells, one on each rank, of which everything is extracted: [L] layers of ghosts in the mesh, [L'] in the new one *)
Definition row_near (L q : nat) : list nat := filter (fun c => (c <=? q + L) && (q <=? c + L)) (seq 0 3).
Definition row_verts (c : nat) : list nat := [c; c + 1].
Definition row_vowner (v : nat) : nat := v - 1.
Definition row_world (L L' : nat) : list (brank * xrank) :=
  map (fun q => (BRank (fun k => match k with MREGION => row_near L q | MVERTEX => nodup Nat.eq_dec (flat_map row_verts (row_near L q)) | _ => [] end) (fun _ h => 100 + h),
    XRank (fun k => match k with MREGION => [q] | MVERTEX => filter (fun v => row_vowner v =? q) (seq 0 4) | _ => [] end) (fun _ h => Some h) (fun _ _ => true)
      (fun k => match k with
                | MREGION => map (fun c => (c, (c, c))) (filter (fun c => negb (c =? q)) (row_near L' q))
                | MVERTEX => map (fun v => (v, (row_vowner v, v))) (filter (fun v => negb (row_vowner v =? q)) (nodup Nat.eq_dec (flat_map row_verts (row_near L' q))))
                | _ => []
                end))) (seq 0 3).
Lemma row_sound L L' : (L = 1 \/ L = 2) -> (L' = 1 \/ L' = 2) -> sound_world (row_world L L').
Proof.
  intros HL HL'. constructor.
  - intros q b x k h H Hh. exists h. destruct HL as [-> | ->], HL' as [-> | ->], q as [|[|[|q]]]; try (destruct q; discriminate); injection H as <- <-; (split; [reflexivity|]);
      destruct k; simpl in *; intuition.
  - intros q b x k H. destruct HL as [-> | ->], HL' as [-> | ->], q as [|[|[|q]]]; try (destruct q; discriminate); injection H as <- <-; destruct k; simpl;
      repeat constructor; simpl; intuition discriminate.
  - intros q b x k h p e H Hg. destruct HL as [-> | ->], HL' as [-> | ->], q as [|[|[|q]]]; try (destruct q; discriminate); injection H as <- <-; destruct k; simpl in Hg;
      repeat (destruct Hg as [Hg|Hg]; [injection Hg as <- <- <-; do 2 eexists; split; [reflexivity|split; [simpl; auto|reflexivity]]|]); try destruct Hg.
Qed.
Theorem c100_more_layers_refuted : sound_world (row_world 1 2) /\ build_parents (row_world 1 2) = Thrown.
Proof. split; [apply row_sound; auto|reflexivity]. Qed.
Example c100_witness : sound_world (row_world 1 1) /\ exists R, build_parents (row_world 1 1) = Ok R /\
  nth_error R 0 = Some [(MVERTEX, [(2, 2)]); (MEDGE, []); (MFACE, []); (MREGION, [(1, 1)])] /\
  (let closure c k := match k with MVERTEX => [100 + c; 100 + (c + 1)] | MREGION => [100 + c] | _ => [] end in
   forall q b x k h p e g, nth_error (row_world 1 1) q = Some (b, x) -> In (h, (p, e)) (x_ghosts x k) -> parent_id (row_world 1 1) p k e g ->
     exists c, near (fun c => c < 3) row_verts (fun c => c) q 1 c /\ In g (closure c k)).
Proof.
  split; [apply row_sound; auto|]. eexists. split; [reflexivity|]. split; [reflexivity|].
  intros closure q b x k h p e g H Hg Pg.
  assert (N : forall q c, q < 3 -> c < 3 -> c = q + 1 \/ q = c + 1 -> near (fun c => c < 3) row_verts (fun c => c) q 1 c).
  { intros q0 c Hq Hc [->| ->].
    - apply near_next with (c := q0) (v := q0 + 1); [apply near_own; auto|exact Hc|simpl; auto|simpl; auto].
    - apply near_next with (c := c + 1) (v := c + 1); [apply near_own; auto|exact Hc|simpl; auto|simpl; auto]. }
  destruct q as [|[|[|q]]]; try (destruct q; discriminate); injection H as <- <-; destruct k; simpl in Hg;
    repeat (destruct Hg as [Hg|Hg]; [injection Hg as <- <- <-; destruct Pg as (b' & x' & u & E1 & E2 & ->); simpl in E1; injection E1 as <- <-; simpl in E2; injection E2 as <-; simpl|]);
    try destruct Hg.
  all: try (exists 1; split; [apply N; lia|simpl; auto; fail]).
  all: try (exists 0; split; [apply N; lia|simpl; auto; fail]).
  all: try (exists 2; split; [apply N; lia|simpl; auto; fail]).
Qed.
