(** C59 *)
From Verif Require Import Base ErrorHandling.

(** the query reports the last behaviour set (RAISE if none was) *)
Theorem c59_query_partial : forall l, exception_behavior (run_setters l) = last l RAISE.
Proof.
  intros l. unfold run_setters. destruct l as [|a l] using rev_ind; [reflexivity|].
  rewrite fold_left_app, last_last. reflexivity.
Qed.
Print Assumptions c59_query_partial.

(** as long as the behaviour in effect is RAISE, Jali_throw raises *)
Theorem c59_raise_partial : forall l n, exception_behavior (run_setters l) = RAISE -> Jali_throw (run_setters l) n = Raised.
Proof.
  intros l n _. assert (H : forall l c, c (OtherTu n) = RAISE -> fold_left set_behavior l c (OtherTu n) = RAISE).
  { induction l0 as [|a l0 IH]; intros c Hc; auto. cbn. apply IH; auto. }
  unfold Jali_throw, run_setters. rewrite H; reflexivity.
Qed.
Print Assumptions c59_raise_partial.

(** Finding: ABORT has no effect: whatever was set, Jali_throw raises in every source file, while the query says ABORT *)
Theorem c59_abort_refuted : forall l n, Jali_throw (run_setters (l ++ [ABORT])) n = Raised /\ exception_behavior (run_setters (l ++ [ABORT])) = ABORT.
Proof.
  intros l n. split; [|rewrite c59_query_partial, last_last; reflexivity].
  assert (H : forall l c, c (OtherTu n) = RAISE -> fold_left set_behavior l c (OtherTu n) = RAISE).
  { induction l0 as [|a l0 IH]; intros c Hc; auto. cbn. apply IH; auto. }
  unfold Jali_throw, run_setters. rewrite H; reflexivity.
Qed.
Print Assumptions c59_abort_refuted.

Example c59_example : exception_behavior (run_setters [ABORT; RAISE]) = RAISE.
Proof. reflexivity. Qed.
