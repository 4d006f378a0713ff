(** The state after a history of tile requests. *)
From Verif Require Import Base Loop Defs Factory Tiles Tiles_spec Cache_proofs MeshSet MeshSet_proofs Tiles_proofs.
Set Implicit Arguments.

Definition parts (k : entity_kind) (hist : list treq) : list (list nat) :=
  map (fun r => if asks k (tr_flags r) then tr_cells r else []) hist.
Definition gathered (b : bool) (r : nat -> list nat) (o g : list nat) : elist :=
  if b then EList (flat_map r o) (flat_map r g) (flat_map r o ++ flat_map r g) else el_empty.

Record tile_spec (m : tmesh) (g : cellmap) (hist : list treq) (i : nat) (r : treq) (t : tile) : Prop := {
  ts_id : t_id t = i;
  ts_cells : el_owned (t_cells t) = tr_cells r;
  ts_all : el_all (t_cells t) = tr_cells r ++ el_ghost (t_cells t);
  ts_gnd : NoDup (el_ghost (t_cells t));
  ts_glt : forall c, In c (el_ghost (t_cells t)) -> c < tm_ncells m;
  ts_gin : forall c, In c (el_ghost (t_cells t)) <-> within (m_adj g) (tr_cells r) (Z.to_nat (tr_layers r)) c /\ ~ In c (tr_cells r);
  ts_shared : forall k, shared_kind k ->
     if asks k (tr_flags r) then el_ok (ent_of g k) (parts k (firstn i hist)) (tr_cells r) (el_ghost (t_cells t)) (t_list t k)
     else t_list t k = el_empty;
  ts_sides : t_sides t = gathered (fl_wedges (tr_flags r)) (m_sides g) (tr_cells r) (el_ghost (t_cells t));
  ts_wedges : t_wedges t = gathered (fl_wedges (tr_flags r)) (m_wedges g) (tr_cells r) (el_ghost (t_cells t));
  ts_corners : t_corners t = gathered (fl_corners (tr_flags r)) (m_corners g) (tr_cells r) (el_ghost (t_cells t)) }.

Definition td_arr (d : tdata) (k : entity_kind) : list Z :=
  match k with NODE => td_node d | FACE => td_face d | EDGE => td_edge d | CELL => td_cell d | _ => [] end.
(** the cell array: the last request naming the cell *)
Definition carr_ok (n : nat) (hist : list treq) (arr : list Z) : Prop :=
  length arr = n /\ forall c, c < n -> exists t, nth_error arr c = Some t /\
    ((t = (-1)%Z /\ forall r, In r hist -> ~ In c (tr_cells r)) \/
     (exists i r, t = Z.of_nat i /\ nth_error hist i = Some r /\ In c (tr_cells r) /\
        forall j r', i < j -> nth_error hist j = Some r' -> ~ In c (tr_cells r'))).
Record tinv (m : tmesh) (g : cellmap) (hist : list treq) (d : tdata) : Prop := {
  ti_init : td_init d = true;
  ti_arr : forall k, shared_kind k -> asks k (tm_flags m) = true -> arr_ok (ent_of g k) (num_of m k) (parts k hist) (td_arr d k);
  ti_cell : carr_ok (tm_ncells m) hist (td_cell d);
  ti_len : length (td_tiles d) = length hist;
  ti_tiles : forall i r t, nth_error hist i = Some r -> nth_error (td_tiles d) i = Some t -> tile_spec m g hist i r t }.

Lemma resize_m1_nil n : resize_m1 [] n = repeat (-1)%Z n.
Proof. unfold resize_m1. rewrite firstn_nil. simpl. rewrite Nat.sub_0_r. auto. Qed.
Lemma arr_ok_init ent n : arr_ok ent n [] (repeat (-1)%Z n).
Proof.
  split; [apply repeat_length|]. intros e He. exists (-1)%Z. split; [apply nth_error_repeat_Some; auto|]. left. split; auto.
Qed.

Section M.
Variables (m : tmesh) (g : cellmap).
Hypothesis K : tile_mesh m g.

Lemma init_inv : tinv m g [] (init_tiles m no_tiles).
Proof.
  constructor; simpl; auto.
  - intros k [<-|[<-|[<-|[]]]] A; simpl in *; rewrite ?A, resize_m1_nil; apply arr_ok_init.
  - rewrite resize_m1_nil. split; [apply repeat_length|]. intros c Hc. exists (-1)%Z. split; [apply nth_error_repeat_Some; auto|]. auto.
  - intros i r t H. destruct i; discriminate.
Qed.

(** the body of make_meshtile after the initialisation *)
Definition mk (d : tdata) (r : treq) : outcome tdata :=
  let cells := tr_cells r in let req := tr_flags r in
  let id := length (td_tiles d) in
  h <- (if (0 <? tr_layers r)%Z then halos m (Z.to_nat (tr_layers r)) cells [] else Ok (cells, [])) ;;
  let '(call, cghost) := h in
  carr <- foldM cells (fun c arr => wr arr c (Z.of_nat id)) (td_cell d) ;;
  n <- claim (tm_nodes m) (td_init d) id cells cghost (td_node d) ;;
  f <- only_if (fl_faces req) (el_empty, td_face d) (claim (tm_faces m) (td_init d) id cells cghost (td_face d)) ;;
  e <- only_if (fl_edges req) (el_empty, td_edge d) (claim (tm_edges m) (td_init d) id cells cghost (td_edge d)) ;;
  s <- only_if (fl_wedges req) el_empty (gather (tm_sides m) cells cghost) ;;
  w <- only_if (fl_wedges req) el_empty (gather (tm_wedges m) cells cghost) ;;
  k <- only_if (fl_corners req) el_empty (gather (tm_corners m) cells cghost) ;;
  Ok (TData (td_init d) (snd n) (snd e) (snd f) carr
        (td_tiles d ++ [Tile id (EList cells cghost call) (fst n) (fst f) (fst e) s w k])).
Lemma make_mk d r : make_meshtile m d (tr_cells r) (tr_layers r) (tr_flags r) =
  mk (match td_tiles d with [] => init_tiles m d | _ => d end) r.
Proof. reflexivity. Qed.

Lemma carr_step cells (id : Z) (arr : list Z) : (forall c, In c cells -> c < length arr) ->
  exists arr', foldM cells (fun c a => wr a c id) arr = Ok arr' /\ length arr' = length arr /\
    (forall c, In c cells -> nth_error arr' c = Some id) /\ (forall c, ~ In c cells -> nth_error arr' c = nth_error arr c).
Proof.
  revert arr. induction cells as [|x cells IH]; intros arr H; simpl.
  - exists arr. split; auto. split; auto. split; [intros c []|auto].
  - rewrite wr_ok by (apply H; simpl; auto). cbn [bind]. destruct (IH (set_nth arr x id)) as [a [E [L [H1 H2]]]].
    { intros c Hc. rewrite set_nth_length. apply H; simpl; auto. }
    exists a. split; auto. rewrite set_nth_length in L. split; auto. split.
    + intros c [<-|Hc]; auto. destruct (in_dec Nat.eq_dec x cells) as [I|I]; auto. rewrite H2 by auto.
      apply nth_error_set_nth_eq. apply H; simpl; auto.
    + intros c Hc. rewrite H2 by tauto. apply nth_error_set_nth_ne. tauto.
Qed.

Lemma arr_ok_skip ent n P arr : arr_ok ent n P arr -> arr_ok ent n (P ++ [[]]) arr.
Proof.
  intros [L A]. split; auto. intros e He. destruct (A e He) as [t [E B]]. exists t. split; auto. destruct B as [[B1 B2]|[i [p [B1 [B2 [B3 B4]]]]]].
  - left. split; auto. intros p Hp. apply in_app_iff in Hp as [Hp|[<-|[]]]; auto. intros [c [[] _]].
  - right. exists i, p. split; auto. assert (Li := nth_error_lt _ _ B2). split; [rewrite nth_error_app1; auto|]. split; auto.
    rewrite firstn_app. replace (i - length P) with 0 by lia. simpl. rewrite app_nil_r. auto.
Qed.

(** one shared kind *)
Lemma claim_step q k hist r ghost arr : shared_kind k -> (asks k (tm_flags m) = true -> answers q (tm_ncells m) (ent_of g k) (num_of m k)) ->
  (asks k (tr_flags r) = true -> asks k (tm_flags m) = true) ->
  (forall c, In c (tr_cells r) -> c < tm_ncells m) -> (forall c, In c ghost -> c < tm_ncells m) ->
  (asks k (tm_flags m) = true -> arr_ok (ent_of g k) (num_of m k) (parts k hist) arr) ->
  exists l arr', only_if (asks k (tr_flags r)) (el_empty, arr) (claim q true (length hist) (tr_cells r) ghost arr) = Ok (l, arr') /\
    (asks k (tm_flags m) = true -> arr_ok (ent_of g k) (num_of m k) (parts k (hist ++ [r])) arr') /\
    (if asks k (tr_flags r) then el_ok (ent_of g k) (parts k hist) (tr_cells r) ghost l else l = el_empty).
Proof.
  intros SK Q V Hc Hg A. unfold only_if. assert (PA : parts k (hist ++ [r]) = parts k hist ++ [if asks k (tr_flags r) then tr_cells r else []]).
  { unfold parts. rewrite map_app. auto. }
  rewrite PA. destruct (asks k (tr_flags r)).
  - destruct (@claim_ok q (ent_of g k) (num_of m k) (tm_ncells m) (parts k hist) arr (tr_cells r) ghost) as [l [a [E [H1 H2]]]]; auto.
    unfold parts in E. rewrite map_length in E. exists l, a. auto.
  - exists el_empty, arr. split; auto. split; auto. intros H. apply arr_ok_skip; auto.
Qed.
Lemma gather_step (b : bool) q r owned ghost : (b = true -> forall c, c < tm_ncells m -> q c = Ok (r c)) ->
  (forall c, In c owned -> c < tm_ncells m) -> (forall c, In c ghost -> c < tm_ncells m) ->
  only_if b el_empty (gather q owned ghost) = Ok (gathered b r owned ghost).
Proof.
  intros H H1 H2. unfold only_if, gathered. destruct b; auto. rewrite (@gather_ok q r); auto.
Qed.

Lemma mk_ok hist d r : tinv m g hist d -> valid_req m r -> exists d', mk d r = Ok d' /\ tinv m g (hist ++ [r]) d'.
Proof.
  intros I (V1 & V2 & V3 & V4 & V5). unfold mk. rewrite (ti_init I), (ti_len I).
  destruct (@halo_ok m g K (tr_cells r) (tr_layers r) V1) as [gh [E [G1 [G2 G3]]]]. rewrite E. cbn [bind].
  destruct (ti_cell I) as [CL CA].
  destruct (@carr_step (tr_cells r) (Z.of_nat (length hist)) (td_cell d)) as [ca [E' [L1 [L2 L3]]]]; [rewrite CL; auto|]. rewrite E'. cbn [bind]. clear E E'.
  assert (SNODE : shared_kind NODE) by (unfold shared_kind; simpl; auto). assert (SFACE : shared_kind FACE) by (unfold shared_kind; simpl; auto). assert (SEDGE : shared_kind EDGE) by (unfold shared_kind; simpl; auto).
  destruct (@claim_step (tm_nodes m) NODE hist r gh (td_node d) SNODE (fun _ => tk_nodes K) (fun H => H) V1 G2 (ti_arr I SNODE)) as [n [na [En [An Ln]]]].
  cbn [asks only_if] in En. rewrite En. cbn [bind].
  destruct (@claim_step (tm_faces m) FACE hist r gh (td_face d) SFACE (tk_faces K) V2 V1 G2 (ti_arr I SFACE)) as [f [fa [Ef [Af Lf]]]].
  cbn [asks] in Ef. rewrite Ef. cbn [bind].
  destruct (@claim_step (tm_edges m) EDGE hist r gh (td_edge d) SEDGE (tk_edges K) V3 V1 G2 (ti_arr I SEDGE)) as [e [ea [Ee [Ae Le]]]].
  cbn [asks] in Ee. rewrite Ee. cbn [bind].
  rewrite (@gather_step _ (tm_sides m) (m_sides g)); auto; [|intros W; apply (tk_sides K), (tk_closed K); auto]. cbn [bind].
  rewrite (@gather_step _ (tm_wedges m) (m_wedges g)); auto; [|intros W; apply (tk_wedges K); auto]. cbn [bind].
  rewrite (@gather_step _ (tm_corners m) (m_corners g)); auto; [|intros W; apply (tk_corners K); auto]. cbn [bind fst snd].
  eexists. split; [reflexivity|]. constructor; cbn [td_init td_node td_edge td_face td_cell td_tiles].
  - auto.
  - intros k [<-|[<-|[<-|[]]]] A; cbn [td_arr td_node td_face td_edge]; auto.
  - split; [congruence|]. intros c Hc. destruct (in_dec Nat.eq_dec c (tr_cells r)) as [Ic|Ic].
    + exists (Z.of_nat (length hist)). split; auto. right. exists (length hist), r. split; auto.
      split; [rewrite nth_error_app2, Nat.sub_diag by lia; auto|]. split; auto.
      intros j r' Hj Hr. apply nth_error_lt in Hr. rewrite app_length in Hr. simpl in Hr. lia.
    + rewrite L3 by auto. destruct (CA c Hc) as [t [Et B]]. exists t. split; auto. destruct B as [[B1 B2]|[i [r0 [B1 [B2 [B3 B4]]]]]].
      * left. split; auto. intros r' Hr. apply in_app_iff in Hr as [Hr|[<-|[]]]; auto.
      * right. exists i, r0. split; auto. assert (Li := nth_error_lt _ _ B2). split; [rewrite nth_error_app1; auto|]. split; auto.
        intros j r' Hj Hr. destruct (Nat.lt_ge_cases j (length hist)).
        -- rewrite nth_error_app1 in Hr by auto. eauto.
        -- rewrite nth_error_app2 in Hr by auto. destruct (j - length hist) as [|x]; simpl in Hr; [congruence|destruct x; discriminate].
  - rewrite !app_length, (ti_len I). auto.
  - intros i r' t Hr Ht. destruct (Nat.lt_ge_cases i (length hist)) as [Hi|Hi].
    + rewrite nth_error_app1 in Hr by auto. rewrite nth_error_app1 in Ht by (rewrite (ti_len I); auto).
      destruct (ti_tiles I i Hr Ht). constructor; auto. intros k Hk. rewrite firstn_app. replace (i - length hist) with 0 by lia.
      simpl. rewrite app_nil_r. apply ts_shared0; auto.
    + rewrite nth_error_app2 in Hr by auto. rewrite nth_error_app2, (ti_len I) in Ht by (rewrite (ti_len I); auto).
      destruct (i - length hist) as [|x] eqn:Ex; [|simpl in Hr; destruct x; discriminate]. assert (i = length hist) by lia. subst i.
      simpl in Hr, Ht. injection Hr as <-. injection Ht as <-. constructor; cbn [t_id t_cells el_owned el_ghost el_all t_sides t_wedges t_corners]; auto.
      intros k Hk. rewrite firstn_app, Nat.sub_diag, firstn_all. simpl. rewrite app_nil_r. destruct Hk as [<-|[<-|[<-|[]]]]; cbn [t_list t_nodes t_faces t_edges]; auto.
Qed.

(** a history *)
Lemma run_ok : forall hist, (forall r, In r hist -> valid_req m r) -> hist <> [] -> exists d, tiles_of m hist = Ok d /\ tinv m g hist d.
Proof.
  intros hist V NE. unfold tiles_of, run_tiles.
  destruct hist as [|r0 hist]; [congruence|]. clear NE. cbn [foldM]. rewrite make_mk. cbn [td_tiles no_tiles].
  destruct (mk_ok init_inv (V r0 (or_introl eq_refl))) as [d0 [E0 I0]]. rewrite E0. cbn [bind app] in *.
  assert (G : forall l h d, (forall r, In r l -> valid_req m r) -> h <> [] -> tinv m g h d ->
    exists d', foldM l (fun r d => make_meshtile m d (tr_cells r) (tr_layers r) (tr_flags r)) d = Ok d' /\ tinv m g (h ++ l) d').
  { induction l as [|r l IH]; intros h d Vl Nh I; cbn [foldM].
    - exists d. rewrite app_nil_r. auto.
    - rewrite make_mk. assert (T : (match td_tiles d with [] => init_tiles m d | _ => d end) = d).
      { destruct (td_tiles d) eqn:Et; auto. assert (L := ti_len I). rewrite Et in L. destruct h; [congruence|discriminate]. }
      rewrite T. destruct (mk_ok I (Vl r (or_introl eq_refl))) as [d1 [E1 I1]]. rewrite E1. cbn [bind].
      destruct (IH (h ++ [r]) d1) as [d' [E' I']]; auto.
      + intros r' Hr. apply Vl. simpl. auto.
      + destruct h; discriminate.
      + exists d'. split; auto. rewrite <- app_assoc in I'. auto. }
  destruct (G hist [r0] d0) as [d' [E' I']]; auto; [|discriminate|exists d'; auto]. intros r Hr. apply V. simpl. auto.
Qed.
Lemma run_inv hist d : (forall r, In r hist -> valid_req m r) -> tiles_of m hist = Ok d -> hist <> [] -> tinv m g hist d.
Proof. intros V E NE. destruct (run_ok V NE) as [d' [E' I]]. rewrite E in E'. injection E' as <-. auto. Qed.
End M.
