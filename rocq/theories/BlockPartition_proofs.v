(** Proofs about the model of block_partition_regular_mesh. *)
From Verif Require Import Base BlockPartition.
Set Implicit Arguments.
Local Open Scope Z_scope.

(** ** Elementary facts about vec3 *)
Lemma get_set_eq d x v : get d (set d x v) = x.
Proof. destruct d as [|[|d]]; reflexivity. Qed.
Lemma get_set_ne d e x v : (d <= 2)%nat -> (e <= 2)%nat -> d <> e -> get e (set d x v) = get e v.
Proof. destruct d as [|[|[|d]]], e as [|[|[|e]]]; intros; simpl; auto; lia. Qed.

Lemma vec3_ext u v : (forall d, (d < 3)%nat -> get d u = get d v) -> u = v.
Proof.
  intros H; destruct u, v. pose proof (H 0%nat ltac:(lia)). pose proof (H 1%nat ltac:(lia)).
  pose proof (H 2%nat ltac:(lia)). simpl in *. congruence.
Qed.

Definition sumw (w : block -> Z) (l : list block) : Z := fold_right (fun b a => w b + a) 0 l.
Lemma sumw_app w l1 l2 : sumw w (l1 ++ l2) = sumw w l1 + sumw w l2.
Proof. induction l1; simpl; lia. Qed.

Section Dim.
Context (dim : nat) (Hdim : (1 <= dim <= 3)%nat).

(** unused dimensions are zero *)
Definition jz (b : block) : Prop := forall d, (dim <= d < 3)%nat -> get d (start b) = 0 /\ get d (num b) = 0.
Definition wf (b : block) : Prop := jz b /\ forall d, (d < dim)%nat -> 1 <= get d (num b).

Definition half1 (b : block) (d : nat) : block :=
  B (start b) (set d (Z.quot (get d (num b)) 2) (num b)).
Definition half2 (b : block) (d : nat) : block :=
  B (set d (get d (start b) + Z.quot (get d (num b)) 2) (start b))
    (set d (get d (num b) - Z.quot (get d (num b)) 2) (num b)).

Definition additive (w : block -> Z) : Prop :=
  forall b d, wf b -> (d < dim)%nat -> 2 <= get d (num b) -> w b = w (half1 b d) + w (half2 b d).

Definition nonblank (l : list block) := filter (fun b => negb (is_blank b)) l.
Lemma nonblank_app l1 l2 : nonblank (l1 ++ l2) = nonblank l1 ++ nonblank l2.
Proof. apply filter_app. Qed.

Lemma wf_not_blank b : wf b -> is_blank b = false.
Proof.
  intros [_ H]. specialize (H 0%nat ltac:(lia)). simpl in H. unfold is_blank.
  destruct (Z.eqb_spec (v0 (num b)) 0); [lia|reflexivity].
Qed.
Lemma nonblank_wf l : Forall wf l -> nonblank l = l.
Proof.
  induction 1 as [|b l Hb Hl IH]; [reflexivity|]. unfold nonblank in *; simpl.
  rewrite (wf_not_blank Hb). simpl. congruence.
Qed.

Lemma half1_wf b d : wf b -> (d < dim)%nat -> 2 <= get d (num b) -> wf (half1 b d).
Proof.
  intros [J N] Hd H2. split.
  - intros e He. simpl. destruct (J e He) as [A B']. rewrite get_set_ne by lia. auto.
  - intros e He. simpl. destruct (Nat.eq_dec d e) as [->|Hn].
    + rewrite get_set_eq. lia.
    + rewrite get_set_ne by lia. auto.
Qed.
Lemma half2_wf b d : wf b -> (d < dim)%nat -> 2 <= get d (num b) -> wf (half2 b d).
Proof.
  intros [J N] Hd H2. split.
  - intros e He. simpl. destruct (J e He) as [A B']. rewrite !get_set_ne by lia. auto.
  - intros e He. simpl. destruct (Nat.eq_dec d e) as [->|Hn].
    + rewrite get_set_eq. lia.
    + rewrite get_set_ne by lia. auto.
Qed.

Lemma copy_dims_jz (src dst : vec3) :
  (forall d, (dim <= d < 3)%nat -> get d src = 0) -> (forall d, (dim <= d < 3)%nat -> get d dst = 0) ->
  copy_dims dim src dst = src.
Proof.
  intros Hs Hd. apply vec3_ext. intros d Hlt. unfold copy_dims.
  destruct d as [|[|[|d]]]; try lia; simpl.
  - destruct (Nat.ltb_spec 0 dim); auto. lia.
  - destruct (Nat.ltb_spec 1 dim); auto. pose proof (Hs 1%nat ltac:(lia)). pose proof (Hd 1%nat ltac:(lia)). simpl in *; lia.
  - destruct (Nat.ltb_spec 2 dim); auto. pose proof (Hs 2%nat ltac:(lia)). pose proof (Hd 2%nat ltac:(lia)). simpl in *; lia.
Qed.

Lemma set_get_id d v : (d < 3)%nat -> set d (get d v) v = v.
Proof. destruct d as [|[|[|d]]], v; intros; simpl; auto; lia. Qed.

Lemma jz_blank b : jz b -> jz (B (start b) zero3).
Proof. intros J d Hd. destruct (J d Hd). simpl. split; auto. destruct d as [|[|[|d]]]; reflexivity. Qed.
Lemma jz_blank_block : jz blank_block.
Proof. intros d Hd. destruct d as [|[|[|d]]]; split; reflexivity. Qed.

(** Room for the children *)
Lemma grow_ok (A T : list block) (n : nat) :
  n = length A -> Forall jz T -> (2 <= length (A ++ T))%nat ->
  exists o1 o2 T', (if (length (A ++ T) <? n + 2)%nat
                    then (A ++ T) ++ repeat blank_block (length (A ++ T)) else A ++ T)
                   = A ++ o1 :: o2 :: T' /\ jz o1 /\ jz o2 /\ Forall jz T' /\
                   (2 <= length (A ++ o1 :: o2 :: T'))%nat.
Proof.
  intros -> HT Hn.
  assert (HR : forall k, Forall jz (repeat blank_block k)).
  { intros k. apply Forall_forall. intros x Hx. apply repeat_spec in Hx. subst. apply jz_blank_block. }
  pose proof (app_length A T) as Hlen.
  assert (HX : exists X, (if (length (A ++ T) <? length A + 2)%nat
                          then (A ++ T) ++ repeat blank_block (length (A ++ T)) else A ++ T) = A ++ X
               /\ Forall jz X /\ (2 <= length X)%nat).
  { destruct (Nat.ltb_spec (length (A ++ T)) (length A + 2)).
    - exists (T ++ repeat blank_block (length (A ++ T))). rewrite <- app_assoc. split; auto. split.
      + apply Forall_app; auto.
      + rewrite app_length, repeat_length. lia.
    - exists T. repeat split; auto. lia. }
  destruct HX as (X & E & HJ & HL). destruct X as [|o1 [|o2 T']]; simpl in HL; try lia.
  exists o1, o2, T'. rewrite E. inversion HJ as [|? ? J1 J2]; subst. inversion J2; subst.
  split; [reflexivity|]. split; auto. split; auto. split; auto. rewrite app_length; simpl; lia.
Qed.

(** One sweep of the splitting loop. *)
Lemma split_loop_spec dir req nblocks : (dir < dim)%nat ->
  forall todo D C T,
  nblocks = (length D + length todo)%nat ->
  Forall wf todo -> Forall jz D -> Forall wf (nonblank D) -> Forall wf C -> Forall jz T ->
  (2 <= length (D ++ todo ++ C ++ T))%nat ->
  length C = (2 * (length D - length (nonblank D)))%nat ->
  Z.of_nat (nblocks + (length D - length (nonblank D))) < req ->
  exists D' C' T' done,
    split_loop (seq (length D) (length todo)) dim dir req nblocks (D ++ todo ++ C ++ T) (length C)
      = Ok (D' ++ C' ++ T', length C', done)
    /\ length D' = nblocks /\ Forall jz D' /\ Forall wf (nonblank D') /\ Forall wf C' /\ Forall jz T'
    /\ (2 <= length (D' ++ C' ++ T'))%nat
    /\ length C' = (2 * (nblocks - length (nonblank D')))%nat
    /\ (forall w, additive w -> sumw w (nonblank D') + sumw w C' = sumw w (nonblank D) + sumw w todo + sumw w C)
    /\ (if done then Z.of_nat (nblocks + (nblocks - length (nonblank D'))) = req
        else Z.of_nat (nblocks + (nblocks - length (nonblank D'))) < req)
    /\ ((length C < length C')%nat \/
        (C' = C /\ D' = D ++ todo /\ done = false /\ Forall (fun b => get dir (num b) <= 1) todo)).
Proof.
  intros Hdir. induction todo as [|b todo IH]; intros D C T Hnb Hwf HjD HwD HwC HjT Hlen HC Hreq.
  - exists D, C, T, false. cbn [length seq split_loop app]. simpl in Hnb, Hlen.
    rewrite Nat.add_0_r in Hnb. rewrite app_nil_r. subst nblocks.
    split; [reflexivity|]. repeat (split; [solve [auto]|]).
    split; [intros w _; simpl; lia|]. split; [auto|]. right; auto.
  - apply Forall_cons_iff in Hwf as [Hb Htodo].
    assert (HflD : (length (nonblank D) <= length D)%nat) by (unfold nonblank; apply filter_length_le).
    cbn [length seq split_loop].
    assert (Erd : rd (D ++ (b :: todo) ++ C ++ T) (length D) = Ok b).
    { apply rd_Ok. simpl. apply nth_error_mid. reflexivity. }
    rewrite Erd; cbn [bind]. rewrite (wf_not_blank Hb).
    assert (Hnb1 : nonblank (D ++ [b]) = nonblank D ++ [b]).
    { rewrite nonblank_app. f_equal. unfold nonblank; simpl. rewrite (wf_not_blank Hb). reflexivity. }
    destruct ((Z.quot (get dir (num b)) 2 =? 0) || (get dir (num b) - Z.quot (get dir (num b)) 2 =? 0)) eqn:Esmall.
    + (* not splittable *)
      assert (Hle : get dir (num b) <= 1).
      { destruct Hb as [_ Hb]. specialize (Hb dir Hdir). lia. }
      destruct (IH (D ++ [b]) C T) as (D' & C' & T' & done & E & H1 & H2 & H3 & H4 & H5 & H6 & H7 & H8 & H9 & H10); auto.
      * rewrite app_length. simpl in *. lia.
      * apply Forall_app; split; auto. constructor; auto. apply Hb.
      * rewrite Hnb1. apply Forall_app; auto.
      * rewrite <- app_assoc. simpl. simpl in Hlen. auto.
      * rewrite Hnb1, !app_length. simpl. lia.
      * rewrite Hnb1, !app_length. simpl. lia.
      * exists D', C', T', done.
        rewrite app_length in E. cbn [length] in E. rewrite Nat.add_1_r in E. rewrite <- !app_assoc in E. cbn [app] in E.
        cbn [app]. rewrite E. split; [reflexivity|].
        repeat (split; [solve [auto]|]). split.
        { intros w Hw. rewrite (H8 w Hw), Hnb1, sumw_app. simpl. lia. }
        split; auto.
        destruct H10 as [H10|(-> & -> & -> & H10)]; [left; auto|right].
        rewrite <- app_assoc. repeat split; auto.
    + (* split *)
      assert (H2 : 2 <= get dir (num b)).
      { destruct Hb as [_ Hb]. specialize (Hb dir Hdir). lia. }
      assert (EA : D ++ (b :: todo) ++ C ++ T = (D ++ (b :: todo) ++ C) ++ T) by (rewrite <- !app_assoc; reflexivity).
      assert (HlA : (nblocks + length C)%nat = length (D ++ (b :: todo) ++ C))
        by (rewrite !app_length; simpl in *; lia).
      rewrite EA.
      destruct (@grow_ok (D ++ (b :: todo) ++ C) T _ HlA HjT) as (o1 & o2 & T' & EG & J1 & J2 & JT & HL2).
      { rewrite <- EA. exact Hlen. }
      rewrite EG. clear EG.
      assert (Er1 : rd ((D ++ (b :: todo) ++ C) ++ o1 :: o2 :: T') (nblocks + length C) = Ok o1)
        by (apply rd_Ok, nth_error_mid; auto).
      rewrite Er1; cbn [bind]. clear Er1.
      assert (Ec1 : B (set dir (get dir (start b)) (copy_dims dim (start b) (start o1)))
                      (set dir (get dir (num b) ÷ 2) (copy_dims dim (num b) (num o1))) = half1 b dir).
      { unfold half1. destruct Hb as [Jb _].
        rewrite !copy_dims_jz; try (intros e He; apply Jb || apply J1; auto).
        rewrite set_get_id by lia. reflexivity. }
      rewrite Ec1. clear Ec1.
      rewrite wr_ok by (rewrite app_length, <- HlA; simpl; lia). cbn [bind].
      rewrite set_nth_mid by auto.
      assert (Er2 : rd ((D ++ (b :: todo) ++ C) ++ half1 b dir :: o2 :: T') (nblocks + length C + 1) = Ok o2).
      { apply rd_Ok. replace ((D ++ (b :: todo) ++ C) ++ half1 b dir :: o2 :: T')
          with (((D ++ (b :: todo) ++ C) ++ [half1 b dir]) ++ o2 :: T') by (rewrite <- app_assoc; reflexivity).
        apply nth_error_mid. rewrite app_length, <- HlA. reflexivity. }
      rewrite Er2; cbn [bind]. clear Er2.
      assert (Ec2 : B (set dir (get dir (start b) + get dir (num b) ÷ 2) (copy_dims dim (start b) (start o2)))
                      (set dir (get dir (num b) - get dir (num b) ÷ 2) (copy_dims dim (num b) (num o2))) = half2 b dir).
      { unfold half2. destruct Hb as [Jb _].
        rewrite !copy_dims_jz; try (intros e He; apply Jb || apply J2; auto). reflexivity. }
      rewrite Ec2. clear Ec2.
      rewrite wr_ok by (rewrite app_length, <- HlA; simpl; lia). cbn [bind].
      replace ((D ++ (b :: todo) ++ C) ++ half1 b dir :: o2 :: T')
          with (((D ++ (b :: todo) ++ C) ++ [half1 b dir]) ++ o2 :: T') by (rewrite <- app_assoc; reflexivity).
      rewrite set_nth_mid by (rewrite app_length, <- HlA; simpl; lia).
      rewrite wr_ok by (rewrite !app_length; simpl; lia). cbn [bind].
      set (b0 := B (start b) zero3).
      assert (EW : set_nth (((D ++ (b :: todo) ++ C) ++ [half1 b dir]) ++ half2 b dir :: T') (length D) b0
                   = D ++ (b0 :: todo) ++ (C ++ [half1 b dir; half2 b dir]) ++ T').
      { rewrite <- !app_assoc. simpl. rewrite set_nth_mid by reflexivity. rewrite <- ?app_assoc. reflexivity. }
      rewrite EW. clear EW.
      assert (Hnb0 : nonblank (D ++ [b0]) = nonblank D).
      { rewrite nonblank_app. unfold nonblank at 2; simpl. apply app_nil_r. }
      assert (HlC : length (C ++ [half1 b dir; half2 b dir]) = (length C + 2)%nat) by (rewrite app_length; reflexivity).
      assert (HwC' : Forall wf (C ++ [half1 b dir; half2 b dir])).
      { apply Forall_app; split; auto. constructor; [apply half1_wf; auto|]. constructor; [apply half2_wf; auto|auto]. }
      assert (Hlen' : (2 <= length (D ++ (b0 :: todo) ++ (C ++ [half1 b dir; half2 b dir]) ++ T'))%nat).
      { rewrite !app_length; simpl; lia. }
      destruct (Z.leb_spec req (Z.of_nat nblocks + Z.of_nat (length C + 2) ÷ 2)) as [Hdone|Hnd].
      * exists (D ++ b0 :: todo), (C ++ [half1 b dir; half2 b dir]), T', true.
        rewrite <- HlC. split; [f_equal; f_equal; f_equal; rewrite <- !app_assoc; reflexivity|].
        assert (Hnn : nonblank (D ++ b0 :: todo) = nonblank D ++ todo).
        { rewrite nonblank_app. unfold nonblank at 2; simpl. f_equal. apply nonblank_wf; auto. }
        assert (length (nonblank D) <= length D)%nat by (unfold nonblank; apply filter_length_le).
        split; [rewrite app_length; simpl in *; lia|].
        split. { apply Forall_app; split; auto. constructor; [apply jz_blank, Hb|].
                 eapply Forall_impl; [|exact Htodo]. intros a Ha; apply Ha. }
        split. { rewrite Hnn. apply Forall_app; auto. }
        split; auto. split; auto. split. { rewrite <- app_assoc. exact Hlen'. }
        split. { rewrite Hnn, HlC, app_length. simpl in *. lia. }
        split. { intros w Hw. rewrite Hnn, !sumw_app. simpl. rewrite (Hw b dir Hb Hdir H2). lia. }
        split. { rewrite Hnn, app_length. simpl in *. lia. }
        left. lia.
      * assert (length (nonblank D) <= length D)%nat by (unfold nonblank; apply filter_length_le).
        destruct (IH (D ++ [b0]) (C ++ [half1 b dir; half2 b dir]) T') as (D' & C' & T'' & done & E & G1 & G2 & G3 & G4 & G5 & G6 & G7 & G8 & G9 & G10); auto.
        -- rewrite app_length; simpl in *; lia.
        -- apply Forall_app; split; auto. constructor; auto. apply jz_blank, Hb.
        -- rewrite Hnb0; auto.
        -- rewrite <- app_assoc. exact Hlen'.
        -- rewrite HlC, Hnb0, app_length. simpl in *. lia.
        -- rewrite Hnb0, app_length. simpl in *. lia.
        -- exists D', C', T'', done.
           rewrite app_length in E. cbn [length] in E. rewrite Nat.add_1_r, HlC in E. rewrite <- !app_assoc in E. cbn [app] in E.
           rewrite <- !app_assoc. cbn [app]. rewrite E. split; [reflexivity|].
           repeat (split; [solve [auto]|]). split.
           { intros w Hw. rewrite (G8 w Hw), Hnb0, sumw_app. simpl. rewrite (Hw b dir Hb Hdir H2). lia. }
           split; auto. left. destruct G10 as [G10|(-> & _)]; lia.
Qed.

(** The shift loop moves everything one slot to the left. *)
Lemma shift_spec R : forall A x J, shift (length R) (length A) (A ++ x :: R ++ J) = Ok (A ++ R ++ last R x :: J).
Proof.
  induction R as [|y R IH]; intros A x J; [reflexivity|].
  cbn [length shift].
  assert (E : rd (A ++ x :: (y :: R) ++ J) (S (length A)) = Ok y).
  { apply rd_Ok. replace (A ++ x :: (y :: R) ++ J) with ((A ++ [x]) ++ y :: R ++ J) by (rewrite <- app_assoc; reflexivity).
    apply nth_error_mid. rewrite app_length; simpl; lia. }
  rewrite E; cbn [bind]. rewrite wr_ok by (rewrite app_length; simpl; lia). cbn [bind].
  rewrite set_nth_mid by reflexivity.
  replace (A ++ y :: (y :: R) ++ J) with ((A ++ [y]) ++ y :: R ++ J) by (rewrite <- app_assoc; reflexivity).
  replace (S (length A)) with (length (A ++ [y])) by (rewrite app_length; simpl; lia).
  rewrite IH. rewrite <- app_assoc. simpl. f_equal. f_equal. f_equal.
  destruct R as [|z R]; [reflexivity|].
  assert (forall a b, last (z :: R) a = last (z :: R) b) as HL.
  { clear. revert z. induction R as [|u R IH]; intros z a b; [reflexivity|]. simpl in *. apply (IH u). }
  f_equal. f_equal. rewrite (HL y x). reflexivity.
Qed.

Lemma last_In (R : list block) x : In (last R x) (x :: R).
Proof.
  revert x. induction R as [|y R IH]; intros x; [left; reflexivity|].
  destruct R as [|z R]; [right; left; reflexivity|].
  change (last (y :: z :: R) x) with (last (z :: R) x).
  destruct (IH x) as [E|H]; [left; exact E|right; right; exact H].
Qed.

Lemma squeeze_spec nnew : forall A K J nblocks,
  Forall jz A -> Forall jz K -> Forall jz J -> (length A <= nblocks)%nat ->
  (nblocks + nnew = length A + length K)%nat ->
  exists J', squeeze (length A) (A ++ K ++ J) nblocks nnew
     = Ok (nonblank A ++ K ++ J', (nblocks - (length A - length (nonblank A)))%nat)
     /\ Forall jz J' /\ length (nonblank A ++ K ++ J') = length (A ++ K ++ J).
Proof.
  intros A. induction A as [|b A IH] using rev_ind; intros K J nblocks HA HK HJ Hle Heq.
  - exists J. cbn [length squeeze app]. simpl. rewrite Nat.sub_0_r. auto.
  - apply Forall_app in HA. destruct HA as [HA Hb]. inversion Hb as [|? ? Jb _]; subst.
    assert (length (nonblank A) <= length A)%nat as Hfl by (unfold nonblank; apply filter_length_le).
    rewrite app_length in *. cbn [length] in *. rewrite Nat.add_1_r in *. cbn [squeeze].
    rewrite <- app_assoc. cbn [app].
    assert (Er : rd (A ++ b :: K ++ J) (length A) = Ok b) by (apply rd_Ok, nth_error_mid; auto).
    rewrite Er; cbn [bind].
    assert (HN1 : nonblank (A ++ [b]) = nonblank A ++ (if is_blank b then [] else [b])).
    { rewrite nonblank_app. f_equal. unfold nonblank; simpl. destruct (is_blank b); reflexivity. }
    rewrite HN1.
    destruct (is_blank b) eqn:Eb; cbn [negb].
    + rewrite app_nil_r.
      destruct (nblocks + nnew)%nat as [|lst] eqn:EL; [lia|].
      assert (lst = length A + length K)%nat by lia.
      replace (lst - length A)%nat with (length K) by lia.
      rewrite shift_spec; cbn [bind].
      assert (Er2 : rd (A ++ K ++ last K b :: J) lst = Ok (last K b)).
      { apply rd_Ok. rewrite app_assoc. apply nth_error_mid. rewrite app_length; lia. }
      rewrite Er2; cbn [bind].
      rewrite wr_ok by (rewrite !app_length; simpl; lia). cbn [bind].
      rewrite app_assoc, set_nth_mid by (rewrite app_length; lia). rewrite <- app_assoc.
      assert (Jl : jz (last K b)).
      { destruct (last_In K b) as [<-|Hin]; auto. rewrite Forall_forall in HK; auto. }
      destruct (IH K (B (start (last K b)) zero3 :: J) (nblocks - 1)%nat) as (J' & E & H1 & H2); auto; try lia.
      { constructor; auto. apply jz_blank; auto. }
      exists J'. rewrite E. split; [f_equal; f_equal; lia|]. split; auto.
      rewrite H2. repeat (rewrite !app_length; cbn [length]). lia.
    + destruct (IH (b :: K) J nblocks) as (J' & E & H1 & H2); auto; try (simpl; lia).
      cbn [app] in E. rewrite E. exists J'. rewrite <- app_assoc. cbn [app]. split.
      * f_equal. f_equal. rewrite app_length; cbn [length]. lia.
      * split; auto.
Qed.

(** State invariant between sweeps *)
Definition inv (arr : list block) (nblocks : nat) (L : list block) : Prop :=
  exists T, arr = L ++ T /\ length L = nblocks /\ Forall wf L /\ Forall jz T /\ (2 <= length arr)%nat.

Definition same_weight (L L' : list block) : Prop := forall w, additive w -> sumw w L' = sumw w L.

Lemma dir_loop_spec req : forall dirs arr nblocks L,
  Forall (fun d => d < dim)%nat dirs ->
  inv arr nblocks L -> Z.of_nat nblocks < req ->
  exists arr' nblocks' done L',
    dir_loop dirs dim req arr nblocks = Ok (arr', nblocks', done) /\ inv arr' nblocks' L' /\
    same_weight L L' /\
    (if done then Z.of_nat nblocks' = req else Z.of_nat nblocks' < req) /\
    ((nblocks < nblocks')%nat \/
     (L' = L /\ nblocks' = nblocks /\ forall d, In d dirs -> Forall (fun b => get d (num b) <= 1) L)).
Proof.
  induction dirs as [|dir dirs IH]; intros arr nblocks L HD HI Hlt.
  - exists arr, nblocks, false, L. split; [reflexivity|]. split; auto. split; [intros w Hw; auto|]. split; auto.
    right. repeat split; auto. intros d [].
  - inversion HD as [|? ? Hd HDs]; subst.
    destruct HI as (T & -> & HL & HwL & HjT & H2).
    cbn [dir_loop].
    destruct (@split_loop_spec dir req nblocks Hd L [] [] T) as
      (D' & C' & T' & done & E & H3 & H4 & H5 & H6 & H7 & H8 & H9 & H10 & H11 & H12); auto; try (simpl; lia).
    { constructor. }
    cbn [length app] in E. rewrite HL in E. rewrite E; cbn [bind].
    assert (Hjw : forall l, Forall wf l -> Forall jz l) by (intros l Hl; eapply Forall_impl; [|exact Hl]; intros a Ha; apply Ha).
    assert (length (nonblank D') <= length D')%nat as Hfl by (unfold nonblank; apply filter_length_le).
    destruct (@squeeze_spec (length C') D' C' T' nblocks) as (J' & ES & HJ' & HlJ); auto; try lia.
    rewrite H3 in ES. rewrite ES; cbn [bind].
    assert (HI' : inv (nonblank D' ++ C' ++ J') (nblocks - (nblocks - length (nonblank D')) + length C') (nonblank D' ++ C')).
    { exists J'. rewrite <- app_assoc. split; auto. rewrite app_length. split; [lia|]. split; [apply Forall_app; auto|].
      split; auto. rewrite HlJ; auto. }
    assert (HSW : same_weight L (nonblank D' ++ C')).
    { intros w Hw. rewrite sumw_app. rewrite (H10 w Hw). simpl. lia. }
    destruct done.
    + exists (nonblank D' ++ C' ++ J'), (nblocks - (nblocks - length (nonblank D')) + length C')%nat, true, (nonblank D' ++ C').
      split; [reflexivity|]. split; auto. split; auto. split; [lia|]. left.
      destruct H12 as [H12|(_ & _ & X & _)]; [simpl in H12; lia|discriminate].
    + destruct (IH _ _ _ HDs HI') as (arr2 & nb2 & done2 & L2 & E2 & I2 & SW2 & R2 & P2); [lia|].
      rewrite E2. exists arr2, nb2, done2, L2. split; auto. split; auto.
      split; [intros w Hw; rewrite (SW2 w Hw); apply HSW; auto|]. split; auto.
      destruct H12 as [H12|(-> & -> & _ & HF)].
      * left. simpl in H12. lia.
      * simpl in *. rewrite (nonblank_wf HwL), app_nil_r in *.
        destruct P2 as [P2|(-> & -> & P2)]; [left; lia|right].
        split; auto. split; [lia|]. intros d [<-|Hin]; auto.
Qed.

Definition vol (b : block) : Z := (if (0 <? dim)%nat then get 0 (num b) else 1) * (if (1 <? dim)%nat then get 1 (num b) else 1)
    * (if (2 <? dim)%nat then get 2 (num b) else 1).

Lemma vol_additive : additive vol.
Proof.
  intros b d Hb Hd H2. unfold vol, half1, half2; cbn [num].
  destruct d as [|[|[|d]]]; try lia; cbn [get set v0 v1 v2];
    destruct (0 <? dim)%nat eqn:E0, (1 <? dim)%nat eqn:E1, (2 <? dim)%nat eqn:E2; try (exfalso; lia); ring.
Qed.

Lemma unit_vol_sum L : Forall wf L -> (forall d, (d < dim)%nat -> Forall (fun b => get d (num b) <= 1) L) ->
  sumw vol L = Z.of_nat (length L).
Proof.
  induction L as [|b L IH]; intros Hw Hu; [reflexivity|]. inversion Hw as [|? ? Hb HwL]; subst.
  cbn [sumw fold_right length]. fold (sumw vol L). rewrite IH; auto.
  - assert (vol b = 1).
    { assert (forall d, (d < dim)%nat -> get d (num b) = 1) as H1.
      { intros d Hd. specialize (Hu d Hd). inversion Hu; subst. destruct Hb as [_ Hb]. specialize (Hb d Hd). lia. }
      unfold vol. destruct (0 <? dim)%nat eqn:E0, (1 <? dim)%nat eqn:E1, (2 <? dim)%nat eqn:E2;
        rewrite ?(H1 0%nat), ?(H1 1%nat), ?(H1 2%nat) by lia; lia. }
    lia.
  - intros d Hd. specialize (Hu d Hd). inversion Hu; auto.
Qed.

Lemma p2_loop_spec req total : req <= total -> forall fuel arr nblocks L,
  inv arr nblocks L -> sumw vol L = total -> Z.of_nat nblocks < req ->
  (Z.to_nat (req - Z.of_nat nblocks) < fuel)%nat ->
  exists arr' L', p2_loop fuel dim req arr nblocks = Ok (arr', Z.to_nat req) /\ inv arr' (Z.to_nat req) L' /\ same_weight L L'.
Proof.
  intros Htot. induction fuel as [|fuel IH]; intros arr nblocks L HI Hs Hlt Hf; [lia|].
  cbn [p2_loop].
  destruct (@dir_loop_spec req (seq 0 dim) arr nblocks L) as (arr1 & nb1 & done & L1 & E & I1 & SW & R & P); auto.
  { apply Forall_forall. intros d Hd. apply in_seq in Hd. lia. }
  rewrite E; cbn [bind]. destruct done.
  - exists arr1, L1. replace (Z.to_nat req) with nb1 by lia. auto.
  - destruct P as [P|(-> & -> & P)].
    + destruct (IH arr1 nb1 L1) as (arr2 & L2 & E2 & I2 & SW2); auto; try lia.
      { rewrite (SW _ vol_additive); auto. }
      exists arr2, L2. split; auto. split; auto. intros w Hw. rewrite (SW2 w Hw). auto.
    + exfalso. destruct HI as (T & _ & HL & HwL & _).
      rewrite unit_vol_sum in Hs; auto; [lia|]. intros d Hd. apply P. apply in_seq. lia.
Qed.
End Dim.
