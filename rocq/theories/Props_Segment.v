(** C68: volumes and areas of one-dimensional cells and faces. *)
From Coq Require Import Reals Lra Psatz.
From Verif Require Import Base Loop Point Geometry Geometry_spec Geometry_proofs.
Set Implicit Arguments.
Local Open Scope R_scope.

(** what is meant: length of an interval, volume of the shell between two spheres, area of a sphere *)
Definition true_volume (gt : geom_type) (a b : R) : R :=
  match gt with CARTESIAN => b - a | SPHERICAL => 4 / 3 * PI * b ^ 3 - 4 / 3 * PI * a ^ 3 | CYLINDRICAL => PI * b ^ 2 - PI * a ^ 2 end.
Definition P1 x := Pt 1 x 0 0.
Lemma norm1 x : norm (P1 x) = Rabs x.
Proof. unfold norm, dot. cbn [pd P1 p0 p1 p2]. replace (0 + x * x) with (Rsqr x) by (unfold Rsqr; lra). apply sqrt_Rsqr_abs. Qed.
Lemma segment_eq gt a b : segment gt [P1 a; P1 b] =
  match gt with CARTESIAN => Ok (Some (Rabs (b - a), P1 ((a + b) / 2))) | SPHERICAL => Ok (Some (4 * PI * (b ^ 3 - a ^ 3) / 3, P1 ((a + b) / 2))) | CYLINDRICAL => Ok None end.
Proof.
  assert (M : smul (/ 2) (padd (P1 b) (P1 a)) = P1 ((a + b) / 2)) by (unfold smul, padd, P1; cbn [pd p0]; f_equal; field).
  destruct gt; auto; unfold segment; cbn [rd nth_error bind]; rewrite M; auto. assert (E : psub (P1 b) (P1 a) = P1 (b - a)) by (unfold psub, P1; auto). rewrite E, norm1. auto.
Qed.
(** ** for nodes in increasing order the volume is exact, positive, and the centroid lies in the cell *)
Theorem c68_volume_exact gt a b : gt <> CYLINDRICAL -> a < b -> (gt = SPHERICAL -> 0 <= a) ->
  exists V m, segment gt [P1 a; P1 b] = Ok (Some (V, P1 m)) /\ V = true_volume gt a b /\ 0 < V /\ a < m < b.
Proof.
  intros N H S0. rewrite segment_eq. destruct gt; [| |congruence]; do 2 eexists; (split; [reflexivity|]); unfold true_volume.
  - rewrite Rabs_pos_eq by lra. lra.
  - assert (P := PI_RGT_0). assert (Ha := S0 eq_refl). assert (D : 0 < b ^ 3 - a ^ 3) by (replace (b ^ 3 - a ^ 3) with ((b - a) * (b * b + a * b + a * a)) by ring; apply Rmult_lt_0_compat; nra).
    split; [field|]. split; [|lra]. apply Rmult_lt_0_compat; [|lra]. apply Rmult_lt_0_compat; lra.
Qed.
(** ** cells add up: the volumes of the cells of a mesh with nodes x0 < x1 < ... sum to the volume of the interval *)
Fixpoint increasing (a : R) (l : list R) : Prop := match l with [] => True | b :: r => a < b /\ increasing b r end.
Fixpoint cells_of (a : R) (l : list R) : list (R * R) := match l with [] => [] | b :: r => (a, b) :: cells_of b r end.
Definition vol_of (gt : geom_type) (c : R * R) : R := match segment gt [P1 (fst c); P1 (snd c)] with Ok (Some (V, _)) => V | _ => 0 end.
Theorem c68_volumes_add_up gt a l : gt <> CYLINDRICAL -> increasing a l -> (gt = SPHERICAL -> 0 <= a) -> sum_of (vol_of gt) (cells_of a l) = true_volume gt a (last l a).
Proof.
  intros N. revert a. induction l as [|b l IH]; intros a I S0.
  - unfold sum_of. simpl. destruct gt; simpl; try congruence; lra.
  - destruct I as [H I]. change (cells_of a (b :: l)) with ((a, b) :: cells_of b l). unfold sum_of in *. cbn [map rsum]. rewrite IH; auto; [|intros E; specialize (S0 E); lra].
    assert (EL : last (b :: l) a = last l b) by (clear; revert b a; induction l as [|c l IH]; intros b a; [reflexivity|]; change (last (b :: c :: l) a) with (last (c :: l) a); rewrite IH; symmetry; apply IH).
    rewrite EL. destruct (c68_volume_exact N H S0) as (V & m & E & EV & _). unfold vol_of. cbn [fst snd]. rewrite E, EV. destruct gt; simpl; try congruence; lra.
Qed.
(** ** the listing order of the two nodes: irrelevant in Cartesian geometry, changes the sign in spherical geometry *)
Theorem c68_node_order a b V m : segment CARTESIAN [P1 a; P1 b] = Ok (Some (V, m)) -> segment CARTESIAN [P1 b; P1 a] = Ok (Some (V, m)).
Proof. rewrite !segment_eq. intros H. rewrite <- H. rewrite Rabs_minus_sym. do 3 f_equal. f_equal. lra. Qed.
Theorem c68_node_order_spherical_refuted a b V m : segment SPHERICAL [P1 a; P1 b] = Ok (Some (V, m)) -> segment SPHERICAL [P1 b; P1 a] = Ok (Some (- V, m)).
Proof. rewrite !segment_eq. intros H. injection H as <- <-. do 3 f_equal; [field|]. f_equal. lra. Qed.
(** ** face areas: the area is the rate of change of the volume with the outer radius *)
Theorem c68_area_is_derivative gt a r : gt <> CYLINDRICAL -> exists A, face1d_area gt [P1 r] = Ok (Some A) /\ derivable_pt_lim (true_volume gt a) r A.
Proof.
  intros N. destruct gt; [| |congruence]; eexists; (split; [reflexivity|]); unfold true_volume.
  - replace 1 with (1 - 0) by lra. apply (derivable_pt_lim_minus id (fct_cte a)); [apply derivable_pt_lim_id|apply derivable_pt_lim_const].
  - cbn [px P1 p0]. replace (4 * PI * r ^ 2) with ((4 / 3 * PI) * (INR 3 * r ^ Nat.pred 3) - 0) by (cbn [INR Nat.pred]; simpl; field).
    apply (derivable_pt_lim_minus (mult_real_fct (4 / 3 * PI) (fun x => x ^ 3)) (fct_cte (4 / 3 * PI * a ^ 3))); [|apply derivable_pt_lim_const].
    apply derivable_pt_lim_scal. apply derivable_pt_lim_pow.
Qed.
(** ** cylindrical geometry: the functions return without writing their results *)
Theorem c68_cylindrical_refuted cc fc : segment CYLINDRICAL cc = Ok None /\ face1d_area CYLINDRICAL fc = Ok None.
Proof. auto. Qed.
(** ** examples *)
Example segment_ex : exists V m, segment SPHERICAL [P1 1; P1 2] = Ok (Some (V, P1 m)) /\ V = 28 / 3 * PI /\ m = 3 / 2.
Proof. rewrite segment_eq. do 2 eexists. split; [reflexivity|]. split; field. Qed.
Example increasing_ex : increasing 0 [1; 2; 4]. Proof. simpl. lra. Qed.
