(** A small mesh and a few regions, to show that the hypotheses of C62, C77 and C78 are met by concrete cases: four square cells in a row, the last one
    a ghost. *)
From Coq Require Import Reals String Lra.
From Verif Require Import Base Loop Defs MeshSet MeshSet_spec MeshSet_proofs3 Point Geometry Regions RegionSets RegionSets_spec.
Set Implicit Arguments.
Local Open Scope R_scope.

Definition row_nodes : list point := map (fun i => Pt 2 (INR i) 0 0) (seq 0 5) ++ map (fun i => Pt 2 (INR i) 1 0) (seq 0 5).
Definition row_centres : list point := map (fun i => Pt 2 (INR i + / 2) (/ 2) 0) (seq 0 4).
Definition row_view : mview :=
  MView 2 false (fun k => match k with CELL => owned_first 3 1 | NODE => owned_first 10 0 | _ => [] end)
    (rd row_centres) (fun _ => UB) (rd row_nodes) (fun _ => UB) (fun _ => UB) (fun _ => UB) (fun _ _ => UB) simple_labeled.
Definition pt (x y : R) : point := Pt 2 x y 0.
(** A = [0,2]x[0,1], B = [1,3]x[0,1]; D = A - B, I = A meet B, N = D or I *)
Definition row_A : rgn := Rgn "A" 2 PERMANENT (SBox (Box (pt 0 0) (pt 2 1) 2)).
Definition row_B : rgn := Rgn "B" 2 PERMANENT (SBox (Box (pt 1 0) (pt 3 1) 2)).
Definition row_D : rgn := Rgn "D" 3 PERMANENT (SLogical (Logical "D" 2 (Some SUBTRACT) ["A"; "B"]%string)).
Definition row_I : rgn := Rgn "I" 3 PERMANENT (SLogical (Logical "I" 3 (Some INTERSECT) ["A"; "B"]%string)).
Definition row_N : rgn := Rgn "N" 3 PERMANENT (SLogical (Logical "N" 4 (Some UNION) ["D"; "I"]%string)).
Definition row_model : gmodel := GModel 2 [row_A; row_B; row_D; row_I; row_N].

Lemma row_numbered : numbered (v_types row_view CELL).
Proof. exists 3%nat, 1%nat, 0%nat. reflexivity. Qed.
Lemma tol_pos : 0 < tol_box < / 4.
Proof.
  unfold tol_box. assert (P : 4 < 10 ^ 8) by (cbn; lra). split; [apply Rdiv_lt_0_compat; lra|].
  apply Rmult_lt_reg_r with (10 ^ 8); [lra|]. unfold Rdiv. rewrite Rmult_assoc, Rinv_l by lra. lra.
Qed.
Lemma between_yes x a b : a <= x <= b -> between_ x a b = true.
Proof.
  intros H. pose proof tol_pos. unfold between_. apply orb_true_iff. right. unfold geb, leb.
  destruct (Rle_dec _ _) as [_|N]; [|exfalso; lra]. destruct (Rle_dec _ _) as [_|N]; auto; exfalso; lra.
Qed.
Lemma between_no x a b : a <= b -> x <= a - / 4 \/ b + / 4 <= x -> between_ x a b = false.
Proof.
  intros L H. pose proof tol_pos. unfold between_, geb, leb. apply orb_false_iff. split; apply andb_false_iff.
  - destruct (Rle_dec x (a + tol_box)); auto. right. destruct (Rle_dec (b - tol_box) x); auto; exfalso; lra.
  - destruct (Rle_dec x (b + tol_box)); auto. right. destruct (Rle_dec (a - tol_box) x); auto; exfalso; lra.
Qed.
Lemma row_box n a b x y : inside (Rgn n 2 PERMANENT (SBox (Box (pt a 0) (pt b 1) 2))) (Pt 2 x y 0) = Ok (between_ x a b && between_ y 0 1).
Proof. reflexivity. Qed.
Lemma row_answers_cell n a b : answered row_view (Rgn n 2 PERMANENT (SBox (Box (pt a 0) (pt b 1) 2))) CELL.
Proof.
  intros e L. cbn in L. do 4 (destruct e as [|e]; [eexists _, _; split; [reflexivity|apply row_box]|]). lia.
Qed.
Lemma row_answers_node n a b : answered row_view (Rgn n 2 PERMANENT (SBox (Box (pt a 0) (pt b 1) 2))) NODE.
Proof.
  intros e L. cbn in L. do 10 (destruct e as [|e]; [eexists _, _; split; [reflexivity|apply row_box]|]). lia.
Qed.
Lemma row_cells n a b e : (e < 4)%nat -> 
  belongs row_view (Rgn n 2 PERMANENT (SBox (Box (pt a 0) (pt b 1) 2))) CELL e <-> between_ (INR e + / 2) a b = true.
Proof.
  intros L. cbn [belongs rn_shape]. unfold at_point. cbn [v_cell_centroid row_view].
  assert (E : rd row_centres e = Ok (Pt 2 (INR e + / 2) (/ 2) 0)) by (do 4 (destruct e as [|e]; [reflexivity|]); lia).
  assert (Y : between_ (/ 2) 0 1 = true) by (apply between_yes; lra).
  rewrite E. split.
  - intros (p & [= <-] & H). rewrite row_box, Y, andb_true_r in H. congruence.
  - intros H. eexists. split; [reflexivity|]. rewrite row_box, Y, H. auto.
Qed.
Lemma row_A_cells e : (e < 4)%nat -> belongs row_view row_A CELL e <-> (e < 2)%nat.
Proof.
  intros L. unfold row_A. rewrite row_cells by auto. destruct (Nat.ltb_spec e 2) as [H|H].
  - split; auto. intros _. apply between_yes. assert (INR e <= 1) by (apply (le_INR e 1); lia). pose proof (pos_INR e). lra.
  - split; [|lia]. rewrite between_no; [discriminate|lra|]. right. apply (le_INR 2 e) in H. cbn in H. lra.
Qed.
Lemma row_B_cells e : (e < 4)%nat -> belongs row_view row_B CELL e <-> (1 <= e < 3)%nat.
Proof.
  intros L. unfold row_B. rewrite row_cells by auto. destruct (Nat.leb_spec 1 e) as [H|H]; [destruct (Nat.ltb_spec e 3) as [H'|H']|].
  - split; auto. intros _. apply between_yes. apply (le_INR 1 e) in H. assert (INR e <= 2) by (apply (le_INR e 2); lia). cbn in H. lra.
  - split; [|lia]. rewrite between_no; [discriminate|lra|]. right. apply (le_INR 3 e) in H'. cbn in H'. lra.
  - split; [|lia]. assert (e = 0)%nat by lia. subst e. rewrite between_no; [discriminate|lra|]. left. cbn. lra.
Qed.

(** *** The logical regions of the row *)
Lemma find_some_in l n r : find_rgn l n = Some r -> In r l.
Proof.
  induction l as [|a l IH]; cbn [find_rgn]; [discriminate|]. destruct (String.eqb (rn_name a) n); [intros [= <-]; left; auto|right; auto].
Qed.
Lemma row_leaf n r : find_rgn (gd_regions row_model) n = Some r -> r = row_A \/ r = row_B -> denotes row_view row_model CELL n (belongs row_view r CELL).
Proof.
  intros F [->| ->]; apply den_leaf; auto; try reflexivity; try exact I; apply row_answers_cell.
Qed.
Definition row_AB (m : string) : nat -> Prop := belongs row_view (if String.eqb m "A" then row_A else row_B) CELL.
Lemma row_AB_denotes m : In m ["A"; "B"]%string -> denotes row_view row_model CELL m (row_AB m).
Proof. intros [<-|[<-|[]]]; apply row_leaf; auto; reflexivity. Qed.
Definition row_DI (m : string) : nat -> Prop := op_means (if String.eqb m "D" then SUBTRACT else INTERSECT) 4 row_AB ["A"; "B"]%string.
Lemma row_DI_denotes m : In m ["D"; "I"]%string -> denotes row_view row_model CELL m (row_DI m).
Proof.
  intros [<-|[<-|[]]].
  - apply (@den_logical row_view row_model CELL "D" row_D (Logical "D" 2 (Some SUBTRACT) ["A"; "B"]%string) SUBTRACT row_AB); auto; try discriminate.
    apply row_AB_denotes.
  - apply (@den_logical row_view row_model CELL "I" row_I (Logical "I" 3 (Some INTERSECT) ["A"; "B"]%string) INTERSECT row_AB); auto; try discriminate.
    apply row_AB_denotes.
Qed.
Lemma row_N_denotes : denotes row_view row_model CELL "N" (op_means UNION 4 row_DI ["D"; "I"]%string).
Proof.
  apply (@den_logical row_view row_model CELL "N" row_N (Logical "N" 4 (Some UNION) ["D"; "I"]%string) UNION row_DI); auto; try discriminate.
  apply row_DI_denotes.
Qed.
(** (A - B) or (A and B) is A: the cells 0 and 1 *)
Lemma row_N_cells e : (e < 4)%nat -> op_means UNION 4 row_DI ["D"; "I"]%string e <-> (e < 2)%nat.
Proof.
  intros L. pose proof (row_A_cells L) as A. pose proof (row_B_cells L) as B.
  assert (TA : row_AB "A" e <-> (e < 2)%nat) by exact A. assert (TB : row_AB "B" e <-> (1 <= e < 3)%nat) by exact B. clear A B.
  assert (TD : row_DI "D" e <-> row_AB "A" e /\ ~ row_AB "B" e).
  { unfold row_DI. cbn [String.eqb Ascii.eqb op_means eqb]. split; intros [H1 H2]; split; auto.
    - apply H2. left; auto.
    - intros m [<-|[]]; auto. }
  assert (TI : row_DI "I" e <-> row_AB "A" e /\ row_AB "B" e).
  { unfold row_DI. cbn [String.eqb Ascii.eqb op_means eqb]. split.
    - intros H. split; apply H; [left|right; left]; auto.
    - intros [H1 H2] m [<-|[<-|[]]]; auto. }
  cbn [op_means]. split.
  - intros (m & [<-|[<-|[]]] & H).
    + apply TD in H as [H _]. apply TA; auto.
    + apply TI in H as [H _]. apply TA; auto.
  - intros H. destruct (Nat.ltb_spec e 1) as [H1|H1].
    + exists "D"%string. split; [left; auto|]. apply TD. split; [apply TA; auto|]. intros X. apply TB in X. lia.
    + exists "I"%string. split; [right; left; auto|]. apply TI. split; [apply TA|apply TB]; lia.
Qed.
Lemma row_plain_unions : plain_unions row_model.
Proof.
  intros n r l F S O. apply find_some_in in F. repeat (destruct F as [<-|F]; [cbn in S; try discriminate; injection S as <-; cbn in *; congruence|]). destruct F.
Qed.
Lemma row_plain_subtracts : plain_subtracts row_model.
Proof.
  intros n r l m t F S O N. apply find_some_in in F.
  destruct F as [<-|[<-|[<-|[<-|[<-|[]]]]]]; try discriminate S; injection S as <-; try discriminate O. cbn in N. injection N as <- <-.
  split; [discriminate|]. intros [X|[]]; discriminate.
Qed.
Lemma row_no_complement : no_complement row_model.
Proof.
  intros n r l F S O. apply find_some_in in F. repeat (destruct F as [<-|F]; [cbn in S; try discriminate; injection S as <-; cbn in *; congruence|]). destruct F.
Qed.
