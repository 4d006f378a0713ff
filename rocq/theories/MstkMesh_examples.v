(** A concrete 2D mesh of one rank of a parallel run: a quadrilateral cell (owned) and a triangle (ghost of the other rank) that share an
    edge.  Handles: vertices 10 11 12 13 14, edges 20..25, faces 30 (quad) 31 (triangle).

        13 --22-- 12
        |          | \ 24
       23   30    21  14
        |          | / 25
        10 --20-- 11                                                                                                          *)
From Verif Require Import Base Defs Geometry_spec MstkMesh MstkMesh_spec.
Definition ex_all (k : mkind) : list nat :=
  match k with MVERTEX => [10; 11; 12; 13; 14] | MEDGE => [20; 21; 22; 23; 24; 25] | MFACE => [30; 31] | MREGION => [] end.
(** node 11, 14 and edges 24, 25 and the triangle belong to the other rank *)
Definition ex_ptype (k : mkind) (h : nat) : par_type :=
  match k, h with
  | MVERTEX, 11 | MVERTEX, 14 | MEDGE, 24 | MEDGE, 25 | MFACE, 31 => PGHOST
  | MVERTEX, 12 | MEDGE, 21 => POVERLAP
  | _, _ => PINTERIOR
  end.
Definition ex_ev (e : nat) : nat * nat :=
  match e with 20 => (10, 11) | 21 => (11, 12) | 22 => (12, 13) | 23 => (10, 13) | 24 => (14, 12) | 25 => (11, 14) | _ => (0, 0) end.
Definition ex_fe (f : nat) : list (nat * bool) :=
  match f with 30 => [(20, true); (21, true); (22, true); (23, false)] | 31 => [(25, true); (24, true); (21, false)] | _ => [] end.
Definition ex_fv (f : nat) : list nat := match f with 30 => [10; 11; 12; 13] | 31 => [11; 14; 12] | _ => [] end.
Definition ex_ve (v : nat) : list nat :=
  match v with 10 => [20; 23] | 11 => [20; 21; 25] | 12 => [21; 22; 24] | 13 => [22; 23] | 14 => [24; 25] | _ => [] end.
Definition ex_vf (v : nat) : list nat := match v with 10 | 13 => [30] | 11 => [30; 31] | 12 => [31; 30] | 14 => [31] | _ => [] end.
Definition ex_ef (e : nat) : list nat := match e with 20 | 22 | 23 => [30] | 21 => [30; 31] | 24 | 25 => [31] | _ => [] end.
Definition ex_mesh : mstk :=
  Mstk 2 ex_all ex_ptype (fun _ h => h) (fun _ => false) ex_ev ex_fe (fun f => rev (map fst (ex_fe f))) ex_fv (fun f => rev (ex_fv f))
    (fun _ => []) (fun _ => []) (fun _ => []) ex_ve ex_vf (fun _ => []) ex_ef (fun _ => []) (fun _ _ => None).
(** the other rank has edge 24 the other way round: 12 -> 14 *)
Definition ex_rcv : received := fun k h => match k, h with MEDGE, 24 => (12, 14) | MEDGE, 25 => (11, 14) | _, _ => (0, 0) end.
Fixpoint no_repeat (l : list nat) : bool := match l with [] => true | x :: r => negb (has r x) && no_repeat r end.
Lemma nodup_nat_dec (l : list nat) : no_repeat l = true -> NoDup l.
Proof.
  induction l as [|x l IH]; intros H; constructor; simpl in H; apply andb_prop in H as [A B]; auto. intros I. apply Bool.negb_true_iff in A.
  assert (E : has l x = true) by (apply existsb_exists; exists x; rewrite Nat.eqb_refl; auto). congruence.
Qed.
Ltac nodup := apply nodup_nat_dec; vm_compute; reflexivity.
Lemma same_cycle_refl A (l : list A) : same_cycle l l.
Proof. exists l, []. rewrite app_nil_r. auto. Qed.
Ltac find_it := vm_compute; repeat (first [left; reflexivity | right]).
Ltac each I := simpl in I; repeat (destruct I as [<-|I]); [..|destruct I].
Lemma ex_is_mesh : mstk_mesh ex_mesh.
Proof.
  constructor.
  - left; reflexivity.
  - intros []; nodup.
  - intros e I. each I; vm_compute; repeat split; try discriminate; tauto.
  - intros f e I J. each I; vm_compute in J |- *; tauto.
  - intros f I. each I; (split; [nodup|vm_compute; repeat constructor]).
  - intros f I. each I; (split; [reflexivity|nodup]).
  - intros f I. apply same_cycle_refl.
  - intros f I. apply same_cycle_refl.
  - intros r f [].
  - intros r [].
  - intros r [].
  - intros r [].
  - intros v I. each I; (split; [nodup|intros e; split; [intros J; each J; (split; [find_it|vm_compute; auto])|intros [J H]; each J; destruct H as [H|H]; vm_compute in H; try discriminate H; find_it]]).
  - intros v I. each I; (split; [nodup|intros e; split; [intros J; each J; (split; find_it)|intros [J H]; each J; vm_compute in H; repeat (destruct H as [H|H]; [try discriminate H; find_it|]); destruct H]]).
  - intros v I. each I; (split; [constructor|]; intros r; split; [intros []|intros [[] _]]).
  - intros v I. each I; (split; [nodup|intros e; split; [intros J; each J; (split; find_it)|intros [J H]; each J; vm_compute in H; repeat (destruct H as [H|H]; [try discriminate H; find_it|]); destruct H]]).
  - intros f I. split; [constructor|]. intros r; split; [intros []|intros [[] _]].
  - intros f r d I. split; [discriminate|intros [[] _]].
  - intros _ e f1 f2 d I1 I2 H1 H2. each I1; each I2; auto; simpl in H1, H2;
      repeat (destruct H1 as [H1|H1]; [injection H1 as <- <-; repeat (destruct H2 as [H2|H2]; [discriminate H2|]); destruct H2|]); destruct H1.
Qed.
