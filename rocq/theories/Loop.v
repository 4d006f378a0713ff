(** C++ counted loops in the outcome monad, and general facts about sequences of array
    assignments.  Nothing here models a particular Jali function. *)
From Verif Require Import Base.
Set Implicit Arguments.

(** [for (x : l) s = f x s;] *)
Fixpoint foldM {A S} (l : list A) (f : A -> S -> outcome S) (s : S) : outcome S :=
  match l with [] => Ok s | x :: t => s' <- f x s ;; foldM t f s' end.

(** [for (int i = 0; i < n; ++i) s = f i s;] *)
Definition for_lt {S} (n : nat) (f : nat -> S -> outcome S) (s : S) : outcome S := foldM (seq 0 n) f s.

(** [for (x : l) out.push_back(f x);] *)
Fixpoint mapM {A B} (f : A -> outcome B) (l : list A) : outcome (list B) :=
  match l with [] => Ok [] | x :: t => y <- f x ;; r <- mapM f t ;; Ok (y :: r) end.

(** A sequence of assignments [a[i] = v]. *)
Definition wr_all {A} (ws : list (nat * A)) (a : list A) : outcome (list A) :=
  foldM ws (fun w a => wr a (fst w) (snd w)) a.

Lemma foldM_app A S (l1 l2 : list A) (f : A -> S -> outcome S) s :
  foldM (l1 ++ l2) f s = (s' <- foldM l1 f s ;; foldM l2 f s').
Proof. revert s; induction l1 as [|x l1 IH]; intros s; simpl; auto. destruct (f x s); simpl; auto. Qed.

Lemma foldM_flat_map A B S (g : A -> list B) (f : B -> S -> outcome S) l s :
  foldM l (fun a s => foldM (g a) f s) s = foldM (flat_map g l) f s.
Proof.
  revert s; induction l as [|x l IH]; intros s; simpl; auto.
  rewrite foldM_app. destruct (foldM (g x) f s); simpl; auto.
Qed.

Lemma foldM_map A B S (g : A -> B) (f : B -> S -> outcome S) l s :
  foldM l (fun a s => f (g a) s) s = foldM (map g l) f s.
Proof. revert s; induction l as [|x l IH]; intros s; simpl; auto. destruct (f (g x) s); simpl; auto. Qed.

Lemma foldM_ext A S (f g : A -> S -> outcome S) l s :
  (forall x s, In x l -> f x s = g x s) -> foldM l f s = foldM l g s.
Proof.
  revert s; induction l as [|x l IH]; intros s H; simpl; auto.
  rewrite H by (left; auto). destruct (g x s); simpl; auto. apply IH. intros y s' Hy; apply H; right; auto.
Qed.

(** Two components updated independently by each iteration. *)
Lemma foldM_pair A S T (f : A -> S -> outcome S) (g : A -> T -> outcome T) l s t s' t' :
  foldM l f s = Ok s' -> foldM l g t = Ok t' ->
  foldM l (fun x st => a <- f x (fst st) ;; b <- g x (snd st) ;; Ok (a, b)) (s, t) = Ok (s', t').
Proof.
  revert s t; induction l as [|x l IH]; intros s t E1 E2; simpl in *.
  - congruence.
  - apply bind_Ok in E1 as [a [Ea E1]]. apply bind_Ok in E2 as [b [Eb E2]].
    rewrite Ea; simpl. rewrite Eb; simpl. auto.
Qed.

Lemma mapM_Ok A B (f : A -> outcome B) (l : list A) (r : list B) :
  Forall2 (fun x y => f x = Ok y) l r -> mapM f l = Ok r.
Proof.
  induction 1 as [|x y l r E _ IH]; simpl; auto. rewrite E; simpl. rewrite IH; auto.
Qed.

Lemma Forall2_nth A B (P : A -> B -> Prop) l r :
  length l = length r -> (forall i x y, nth_error l i = Some x -> nth_error r i = Some y -> P x y) ->
  Forall2 P l r.
Proof.
  revert r; induction l as [|a l IH]; intros [|b r] L H; simpl in *; try discriminate; constructor.
  - apply (H 0); auto.
  - apply IH; [lia|]. intros i x y Hx Hy. apply (H (S i)); auto.
Qed.

Lemma mapM_nth A B (f : A -> outcome B) l r :
  length l = length r ->
  (forall i x y, nth_error l i = Some x -> nth_error r i = Some y -> f x = Ok y) -> mapM f l = Ok r.
Proof. intros L H; apply mapM_Ok, Forall2_nth; auto. Qed.

Lemma nth_error_seq_Some s n i x : nth_error (seq s n) i = Some x -> x = s + i /\ i < n.
Proof.
  intros E. assert (L := nth_error_lt _ _ E). rewrite seq_length in L.
  assert (Hn := nth_error_nth _ _ 0 E). rewrite seq_nth in Hn by auto. lia.
Qed.

(** Outcome of a conflict-free sequence of in-range assignments. *)
Lemma wr_all_spec A (ws : list (nat * A)) (a : list A) :
  (forall i v, In (i, v) ws -> i < length a) ->
  (forall i v v', In (i, v) ws -> In (i, v') ws -> v = v') ->
  exists a', wr_all ws a = Ok a' /\ length a' = length a /\
    (forall i v, In (i, v) ws -> nth_error a' i = Some v) /\
    (forall i, (forall v, ~ In (i, v) ws) -> nth_error a' i = nth_error a i).
Proof.
  revert a; induction ws as [|[i0 v0] ws IH]; intros a HR HF.
  - exists a; simpl. split; [auto|]. split; [auto|]. split; [tauto|]. auto.
  - unfold wr_all; simpl. rewrite wr_ok by (apply (HR i0 v0); left; auto). simpl.
    destruct (IH (set_nth a i0 v0)) as [a' [E [L [H1 H2]]]].
    { intros i v Hi. rewrite set_nth_length. apply (HR i v); right; auto. }
    { intros i v v' Hv Hv'. apply (HF i); right; auto. }
    exists a'. split; [exact E|]. rewrite set_nth_length in L. split; [auto|].
    assert (Hi0 : i0 < length a) by (apply (HR i0 v0); left; auto).
    split.
    + intros i v [E1|Hin]; [|auto]. injection E1 as <- <-.
      destruct (in_dec Nat.eq_dec i0 (map fst ws)) as [Hin|Hin].
      * apply in_map_iff in Hin as [[j w] [Ej Hj]]; simpl in Ej; subst j.
        rewrite (HF i0 v0 w); [auto|left; auto|right; auto].
      * rewrite H2; [apply nth_error_set_nth_eq; auto|].
        intros v Hv. apply Hin. apply in_map_iff. exists (i0, v); auto.
    + intros i Hi. rewrite H2 by (intros v Hv; apply (Hi v); right; auto).
      apply nth_error_set_nth_ne. intros ->. apply (Hi v0); left; auto.
Qed.

Lemma wr_all_app A (w1 w2 : list (nat * A)) a :
  wr_all (w1 ++ w2) a = (a' <- wr_all w1 a ;; wr_all w2 a').
Proof. apply foldM_app. Qed.

(** Assigning a block of consecutive slots. *)
Definition block {A} (s : nat) (vs : list A) : list (nat * A) := combine (seq s (length vs)) vs.

Lemma in_block A s (vs : list A) i v :
  In (i, v) (block s vs) <-> s <= i < s + length vs /\ nth_error vs (i - s) = Some v.
Proof.
  unfold block. revert s; induction vs as [|x vs IH]; intros s; simpl.
  - split; [tauto|]. intros [? ?]; lia.
  - rewrite IH. split.
    + intros [E|[B E]].
      * injection E as <- <-. split; [lia|]. rewrite Nat.sub_diag; auto.
      * split; [lia|]. replace (i - s) with (S (i - S s)) by lia. auto.
    + intros [B E]. destruct (Nat.eq_dec i s) as [->|N].
      * rewrite Nat.sub_diag in E; simpl in E. left; congruence.
      * right. split; [lia|]. replace (i - s) with (S (i - S s)) in E by lia. auto.
Qed.

(** ---- bucket tables: stride-sized buckets, slot 0 holds the count ---- *)
(** [jstart = stride*b; n = t[jstart]; t[jstart+1+n] = v; t[jstart]++;] *)
Definition push_slot (stride : nat) (bv : nat * nat) (t : list nat) : outcome (list nat) :=
  let jstart := stride * fst bv in
  n <- rd t jstart ;;
  t1 <- wr t (jstart + 1 + n) (snd bv) ;;
  n' <- rd t1 jstart ;;
  wr t1 jstart (S n').

Definition push_all (stride : nat) (ps : list (nat * nat)) (t : list nat) : outcome (list nat) :=
  foldM ps (push_slot stride) t.

Definition bucket_of (b : nat) (ps : list (nat * nat)) : list nat :=
  map snd (filter (fun p => fst p =? b) ps).

Record buckets (stride n : nat) (t : list nat) (B : nat -> list nat) : Prop := {
  bk_len : length t = stride * n;
  bk_small : forall b, b < n -> length (B b) < stride;
  bk_cnt : forall b, b < n -> nth_error t (stride * b) = Some (length (B b));
  bk_val : forall b m v, b < n -> nth_error (B b) m = Some v ->
           nth_error t (stride * b + 1 + m) = Some v
}.

Lemma nth_error_repeat_Some A (x : A) n i : i < n -> nth_error (repeat x n) i = Some x.
Proof. revert i; induction n as [|n IH]; intros [|i] H; simpl; auto; try lia. apply IH; lia. Qed.

Lemma buckets_init stride n : 0 < stride -> buckets stride n (repeat 0 (stride * n)) (fun _ => []).
Proof.
  intros H. constructor; simpl; intros.
  - apply repeat_length.
  - lia.
  - apply nth_error_repeat_Some. nia.
  - destruct m; discriminate.
Qed.

Lemma push_slot_buckets stride n t B b v :
  buckets stride n t B -> b < n -> S (length (B b)) < stride ->
  exists t', push_slot stride (b, v) t = Ok t' /\
             buckets stride n t' (fun x => if x =? b then B b ++ [v] else B x).
Proof.
  intros [HL HS HC HV] Hb Hlen. unfold push_slot; simpl.
  assert (E0 := HC b Hb).
  assert (R : rd t (stride * b) = Ok (length (B b))) by (apply rd_Ok; auto).
  rewrite R; simpl.
  assert (L1 : stride * b + 1 + length (B b) < length t) by (rewrite HL; nia).
  rewrite wr_ok by auto; simpl.
  set (t1 := set_nth t (stride * b + 1 + length (B b)) v).
  assert (R1 : rd t1 (stride * b) = Ok (length (B b))).
  { apply rd_Ok. unfold t1. rewrite nth_error_set_nth_ne by lia. auto. }
  rewrite R1; simpl.
  assert (Lt1 : length t1 = stride * n) by (unfold t1; rewrite set_nth_length; auto).
  rewrite wr_ok by (rewrite Lt1; nia).
  eexists; split; [reflexivity|].
  constructor.
  - rewrite set_nth_length; auto.
  - intros x Hx. destruct (Nat.eqb_spec x b) as [->|N]; [rewrite app_length; simpl; lia|auto].
  - intros x Hx. destruct (Nat.eqb_spec x b) as [->|N].
    + rewrite nth_error_set_nth_eq by (rewrite Lt1; nia). rewrite app_length; simpl. f_equal; lia.
    + rewrite nth_error_set_nth_ne by nia. unfold t1.
      rewrite nth_error_set_nth_ne; [auto|].
      assert (x < b \/ b < x) as [?|?] by lia; nia.
  - intros x m w Hx Hm. destruct (Nat.eqb_spec x b) as [->|N].
    + rewrite nth_error_set_nth_ne by lia. unfold t1.
      destruct (Nat.lt_ge_cases m (length (B b))) as [Lm|Lm].
      * rewrite nth_error_set_nth_ne by lia. apply HV; auto. rewrite nth_error_app1 in Hm; auto.
      * rewrite nth_error_app2 in Hm by lia.
        assert (m = length (B b)) as -> by (apply nth_error_lt in Hm; simpl in Hm; lia).
        rewrite Nat.sub_diag in Hm; simpl in Hm. injection Hm as <-.
        apply nth_error_set_nth_eq. auto.
    + assert (Sx := HS x Hx). assert (Lm := nth_error_lt _ _ Hm).
      rewrite nth_error_set_nth_ne by (assert (x < b \/ b < x) as [?|?] by lia; nia).
      unfold t1.
      rewrite nth_error_set_nth_ne by (assert (x < b \/ b < x) as [?|?] by lia; nia).
      auto.
Qed.

Lemma push_all_buckets stride n t B ps :
  buckets stride n t B -> (forall b v, In (b, v) ps -> b < n) ->
  (forall b, b < n -> length (B b ++ bucket_of b ps) < stride) ->
  exists t', push_all stride ps t = Ok t' /\
             buckets stride n t' (fun b => B b ++ bucket_of b ps).
Proof.
  revert t B; induction ps as [|[b v] ps IH]; intros t B HB HR HL; simpl.
  - exists t; split; auto. destruct HB as [h1 h2 h3 h4].
    constructor; auto; intros; cbn [bucket_of filter map] in *; rewrite app_nil_r in *; auto.
  - assert (Hb : b < n) by (apply (HR b v); left; auto).
    destruct (@push_slot_buckets stride n t B b v HB Hb) as [t1 [E1 HB1]].
    { specialize (HL b Hb). unfold bucket_of in HL; simpl in HL. rewrite Nat.eqb_refl in HL.
      simpl in HL. rewrite app_length in HL; simpl in HL. lia. }
    unfold push_all; simpl. rewrite E1; simpl.
    edestruct (IH t1 _ HB1) as [t2 [E2 HB2]].
    { intros x w Hx; apply (HR x w); right; auto. }
    { intros x Hx. specialize (HL x Hx). unfold bucket_of in HL; simpl in HL.
      rewrite (Nat.eqb_sym b x) in HL.
      destruct (Nat.eqb_spec x b) as [E|N]; simpl in HL; auto.
      rewrite E in *. rewrite <- app_assoc; simpl. auto. }
    exists t2. split; [exact E2|].
    destruct HB2 as [h1 h2 h3 h4].
    assert (Q : forall x, (if x =? b then B b ++ [v] else B x) ++ bucket_of x ps
                = B x ++ bucket_of x ((b, v) :: ps)).
    { intros x. unfold bucket_of; simpl. rewrite (Nat.eqb_sym b x).
      destruct (Nat.eqb_spec x b) as [E|N]; simpl; auto. rewrite E, <- app_assoc; auto. }
    constructor; auto; intros; try rewrite <- Q in *; auto.
Qed.

(** [n = t[off]; for (i < n) out.push_back(t[off+i+1]);] *)
Definition read_bucket (stride : nat) (t : list nat) (b : nat) : outcome (list nat) :=
  let off := stride * b in
  n <- rd t off ;; mapM (fun i => rd t (off + i + 1)) (seq 0 n).

Lemma read_bucket_ok stride n t B b :
  buckets stride n t B -> b < n -> read_bucket stride t b = Ok (B b).
Proof.
  intros [HL HS HC HV] Hb. unfold read_bucket.
  assert (R : rd t (stride * b) = Ok (length (B b))) by (apply rd_Ok; auto).
  rewrite R; simpl. apply mapM_nth.
  - apply seq_length.
  - intros i x y Ex Ey. apply nth_error_seq_Some in Ex as [-> _].
    apply rd_Ok. rewrite <- (HV b i y Hb Ey). f_equal; lia.
Qed.

Lemma push_all_app stride p1 p2 t :
  push_all stride (p1 ++ p2) t = (t' <- push_all stride p1 t ;; push_all stride p2 t').
Proof. apply foldM_app. Qed.

Lemma bucket_of_app b p1 p2 : bucket_of b (p1 ++ p2) = bucket_of b p1 ++ bucket_of b p2.
Proof. unfold bucket_of. rewrite filter_app, map_app; auto. Qed.

(** One pass that pushes [v x] into every bucket of the duplicate-free list [bs x]. *)
Lemma bucket_of_flat A (bs : A -> list nat) (v : A -> nat) b l :
  (forall x, In x l -> NoDup (bs x)) ->
  bucket_of b (flat_map (fun x => map (fun m => (m, v x)) (bs x)) l)
  = map v (filter (fun x => if in_dec Nat.eq_dec b (bs x) then true else false) l).
Proof.
  induction l as [|x l IH]; intros H; simpl; auto.
  rewrite bucket_of_app, IH by (intros y Hy; apply H; right; auto).
  assert (Q : bucket_of b (map (fun m => (m, v x)) (bs x))
              = if in_dec Nat.eq_dec b (bs x) then [v x] else []).
  { assert (ND := H x (or_introl eq_refl)). clear IH H.
    unfold bucket_of. induction (bs x) as [|c cs IHc]; simpl; auto.
    apply NoDup_cons_iff in ND as [Nc NDc].
    destruct (Nat.eqb_spec c b) as [E|N]; simpl.
    - subst c. destruct (Nat.eq_dec b b) as [_|E]; [|congruence]. rewrite IHc by auto.
      destruct (in_dec Nat.eq_dec b cs); [contradiction|auto].
    - rewrite IHc by auto. destruct (Nat.eq_dec c b); [tauto|].
      destruct (in_dec Nat.eq_dec b cs); auto. }
  rewrite Q. destruct (in_dec Nat.eq_dec b (bs x)); simpl; auto.
Qed.
