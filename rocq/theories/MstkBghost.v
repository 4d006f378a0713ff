(** Model of the creation of boundary ghost cells: Mesh_MSTK::create_boundary_ghosts, src/mesh/mesh_mstk/Mesh_MSTK.cc:4433-4476, called at the start of
    post_create_steps_ if boundary ghosts are requested (3364-3366). *)
From Verif Require Import Base Loop Defs MstkMesh.
Set Implicit Arguments.

Section Bghost.
(** [new m]: the handle MF_New / MR_New returns.  [corners f d]: the vertices MSTK reports for a cell with the single face f in direction d
    (the code does not look at them here).  [onpar f]: ME_OnParBoundary / MF_OnParBoundary. *)
Variables (new : mstk -> nat) (corners : nat -> bool -> list nat) (onpar : nat -> bool).
Definition put {A} (g : nat -> A) (h : nat) (a : A) : nat -> A := fun x => if x =? h then a else g x.
(** what MF_New and MR_New set: no ghost, no global id; the attribute is set to 1 *)
Definition put_cell {A} (k : mkind) (g : mkind -> nat -> A) (h : nat) (a : A) : mkind -> nat -> A :=
  fun k' x => if mkind_eqb k' k && (x =? h) then a else g k' x.
Definition add_to (tab : nat -> list nat) (vs : list nat) (h : nat) : nat -> list nat := fun v => if has vs v then tab v ++ [h] else tab v.
Definition grow (k : mkind) (all : mkind -> list nat) (h : nat) : mkind -> list nat := fun k' => if mkind_eqb k' k then all k' ++ [h] else all k'.
(** [MF_New; MF_Set_Edges(mfbndry, 1, &me, &dir); MEnt_Set_AttVal(..., 1, ...)], Mesh_MSTK.cc:4447-4450 (2D), and [MR_New; MR_Set_Faces; ...],
    4468-4471 (3D): the upward adjacencies of the face and of its vertices get the new cell too *)
Definition add_cell (m : mstk) (f : nat) (d : bool) : mstk :=
  let h := new m in
  let vs := corners f d in
  if k_dim m =? 2
  then Mstk (k_dim m) (grow MFACE (k_all m) h) (put_cell MFACE (k_ptype m) h PINTERIOR) (put_cell MFACE (k_gid m) h 0) (put (k_bghost m) h true) (k_ev m)
         (put (k_fe m) h [(f, d)]) (put (k_fe_rev m) h [f]) (put (k_fv m) h vs) (put (k_fv_rev m) h (rev vs)) (k_rf m) (k_re m) (k_rv m)
         (k_ve m) (add_to (k_vf m) vs h) (k_vr m) (add_to (k_ef m) [f] h) (k_fr m) (k_side m)
  else Mstk (k_dim m) (grow MREGION (k_all m) h) (put_cell MREGION (k_ptype m) h PINTERIOR) (put_cell MREGION (k_gid m) h 0) (put (k_bghost m) h true) (k_ev m)
         (k_fe m) (k_fe_rev m) (k_fv m) (k_fv_rev m) (put (k_rf m) h [(f, d)]) (put (k_re m) h (map fst (k_fe m f))) (put (k_rv m) h vs)
         (k_ve m) (k_vf m) (add_to (k_vr m) vs h) (k_ef m) (add_to (k_fr m) [f] h)
         (fun f' s => if (f' =? f) && (s =? (if d then 0 else 1)) then Some h else k_side m f' s).
(** [MF_EdgeDir(mfint, me)], [MR_FaceDir(mrint, mf)]: 1, 0, or -1 if the cell does not have the face; [dir = !dir] of that *)
Definition reversed_dir (l : list (nat * bool)) (f : nat) : bool :=
  match find (fun fd => fst fd =? f) l with Some fd => negb (snd fd) | None => false end.
(** one pass of the loop, Mesh_MSTK.cc:4439-4453 (edges of a 2D mesh) and 4460-4474 (faces of a 3D mesh) *)
Definition bghost_step (m : mstk) (f : nat) : mstk :=
  match (if k_dim m =? 2 then k_ef m f else k_fr m f) with
  | [c] => if negb (is_pghost (k_ptype m (face_kind m) f)) && negb (onpar f)
           then add_cell m f (reversed_dir (if k_dim m =? 2 then k_fe m c else k_rf m c) f) else m
  | _ => m
  end.
(** create_boundary_ghosts, Mesh_MSTK.cc:4433-4476: a loop over the edges of a 2D mesh, the faces of a 3D mesh; neither gets new members on the way *)
Definition create_boundary_ghosts (m : mstk) : mstk := fold_left bghost_step (k_all m (face_kind m)) m.
End Bghost.
