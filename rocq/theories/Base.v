(** Shared vocabulary of the model: outcomes of C++ code and checked array access.
    Nothing here models a Jali function; it models the C++ abstract machine as far as the
    rest of the development needs it. *)
From Coq Require Export List Arith ZArith Bool Lia ZifyBool ZifyNat.
Export ListNotations.
Set Implicit Arguments.

Ltac Zify.zify_post_hook ::= Z.to_euclidean_division_equations.

(** Result of running a piece of C++ code.  Everything that is not a normal return is a
    distinct constructor, so no theorem can silently treat it as a value. *)
Inductive outcome (A : Type) : Type :=
| Ok (a : A)          (* normal return *)
| UB                  (* out-of-range access, null dereference, invalid iterator range ... *)
| AssertFail          (* a failed assert() *)
| Thrown              (* an exception was thrown *)
| OutOfFuel.          (* the model's loop fuel was exhausted: possibly non-terminating *)
Arguments Ok {A}. Arguments UB {A}. Arguments AssertFail {A}. Arguments Thrown {A}. Arguments OutOfFuel {A}.

Definition bind {A B} (x : outcome A) (f : A -> outcome B) : outcome B :=
  match x with
  | Ok a => f a | UB => UB | AssertFail => AssertFail | Thrown => Thrown | OutOfFuel => OutOfFuel
  end.
Notation "x <- e ;; f" := (bind e (fun x => f)) (at level 61, e at next level, right associativity).

(** vector::operator[] read: out of range is UB. *)
Definition rd {A} (l : list A) (i : nat) : outcome A :=
  match nth_error l i with Some a => Ok a | None => UB end.

Fixpoint set_nth {A} (l : list A) (i : nat) (x : A) : list A :=
  match l, i with
  | [], _ => []
  | _ :: t, O => x :: t
  | h :: t, S j => h :: set_nth t j x
  end.

(** vector::operator[] write: out of range is UB. *)
Definition wr {A} (l : list A) (i : nat) (x : A) : outcome (list A) :=
  if i <? length l then Ok (set_nth l i x) else UB.

(** Reads and writes with a C++ [int] index (negative = UB). *)
Definition rdz {A} (l : list A) (i : Z) : outcome A :=
  if (i <? 0)%Z then UB else rd l (Z.to_nat i).
Definition wrz {A} (l : list A) (i : Z) (x : A) : outcome (list A) :=
  if (i <? 0)%Z then UB else wr l (Z.to_nat i) x.

Lemma set_nth_length A (l : list A) i x : length (set_nth l i x) = length l.
Proof. revert i; induction l as [|h t IH]; intros [|i]; simpl; auto. Qed.

Lemma nth_error_set_nth_eq A (l : list A) i x : i < length l -> nth_error (set_nth l i x) i = Some x.
Proof. revert i; induction l as [|h t IH]; intros [|i] H; simpl in *; try lia; auto. apply IH; lia. Qed.

Lemma nth_error_set_nth_ne A (l : list A) i j x : i <> j -> nth_error (set_nth l i x) j = nth_error l j.
Proof. revert i j; induction l as [|h t IH]; intros [|i] [|j] H; simpl in *; try lia; auto. Qed.

Lemma set_nth_app_r A (l1 l2 : list A) i x :
  length l1 <= i -> set_nth (l1 ++ l2) i x = l1 ++ set_nth l2 (i - length l1) x.
Proof.
  revert i; induction l1 as [|h t IH]; intros i H; simpl in *.
  - f_equal; lia.
  - destruct i as [|i]; [lia|]. simpl. rewrite IH by lia. reflexivity.
Qed.

Lemma set_nth_app_l A (l1 l2 : list A) i x :
  i < length l1 -> set_nth (l1 ++ l2) i x = set_nth l1 i x ++ l2.
Proof.
  revert i; induction l1 as [|h t IH]; intros [|i] H; simpl in *; try lia; auto.
  rewrite IH by lia. reflexivity.
Qed.

Lemma set_nth_mid A (l1 l2 : list A) y x i : i = length l1 ->
  set_nth (l1 ++ y :: l2) i x = l1 ++ x :: l2.
Proof. intros ->. induction l1; simpl; congruence. Qed.

Lemma nth_error_mid A (l1 l2 : list A) y i : i = length l1 ->
  nth_error (l1 ++ y :: l2) i = Some y.
Proof. intros ->. induction l1; simpl; auto. Qed.

Lemma rd_Ok A (l : list A) i a : rd l i = Ok a <-> nth_error l i = Some a.
Proof. unfold rd; destruct (nth_error l i); split; congruence. Qed.

Lemma wr_ok A (l : list A) i x : i < length l -> wr l i x = Ok (set_nth l i x).
Proof. unfold wr; intros H; destruct (Nat.ltb_spec i (length l)); auto; lia. Qed.

Lemma wr_Ok A (l l' : list A) i x : wr l i x = Ok l' -> i < length l /\ l' = set_nth l i x.
Proof. unfold wr; destruct (Nat.ltb_spec i (length l)); intros E; inversion E; auto. Qed.

Lemma bind_Ok A B (x : outcome A) (f : A -> outcome B) b :
  bind x f = Ok b -> exists a, x = Ok a /\ f a = Ok b.
Proof. destruct x; simpl; intros E; try discriminate; eauto. Qed.

Lemma nth_error_lt A (l : list A) i a : nth_error l i = Some a -> i < length l.
Proof. intros E; apply nth_error_Some; congruence. Qed.

Lemma filter_length_le A (f : A -> bool) (l : list A) : length (filter f l) <= length l.
Proof. induction l as [|x l IH]; simpl; auto. destruct (f x); simpl; lia. Qed.
