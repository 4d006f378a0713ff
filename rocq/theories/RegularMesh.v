(** Model of the regular mesh generators of the MSTK framework: generate_regular_mesh in 3D and 2D,
    src/mesh/mesh_mstk/Mesh_MSTK.cc:4592-5134, and of their calls from the constructors, Mesh_MSTK.cc:239-505.

    The MSTK library itself is not modelled: MV_New, ME_New, MF_New, MR_New append an entity to the mesh and return its handle
    (here: its position), the *_Set_* calls set the fields of the entity just made.  Indices are [nat] (int in the code),
    coordinates reals (double). *)
From Coq Require Import Reals.
From Verif Require Import Base Loop.
Set Implicit Arguments.

(** MSTK entities: vertices with coordinates; entities of dimension 1, 2, 3 with the handles of their vertices; geometric
    entity dimension and id; global id *)
Record mvert := MVert { mv_xyz : R * R * R; mv_gdim : nat; mv_gid : nat; mv_glob : nat }.
Record ment := MEnt { me_verts : list nat; me_gdim : nat; me_gid : nat; me_glob : nat }.
(** a region: MR_Set_GEntID only, the dimension stays MSTK's default *)
Record mreg := MReg { mr_verts : list nat; mr_gid : nat; mr_glob : nat }.
Record mmesh3 := MMesh3 { m_verts : list mvert; m_edges : list ment; m_faces : list ment; m_regs : list mreg }.

(** the classification templates, Mesh_MSTK.cc:4653-4668 *)
Definition vgid_tmpl : list (list (list nat)) := [[[1; 4; 5]; [9; 6; 12]; [3; 8; 7]]; [[1; 1; 3]; [3; 1; 4]; [5; 2; 7]]; [[2; 2; 6]; [10; 5; 11]; [4; 6; 8]]].
Definition vgdim_tmpl : list (list (list nat)) := [[[0; 1; 0]; [1; 2; 1]; [0; 1; 0]]; [[1; 2; 1]; [2; 3; 2]; [1; 2; 1]]; [[0; 1; 0]; [1; 2; 1]; [0; 1; 0]]].
Definition egdim_tmpl : list (list nat) := [[1; 2; 1]; [2; 3; 2]; [1; 2; 1]].
Definition egid_tmpl2 : list (list nat) := [[4; 6; 8]; [1; 1; 2]; [2; 5; 6]].
Definition egid_tmpl1 : list (list nat) := [[9; 6; 12]; [3; 1; 4]; [10; 5; 11]].
Definition egid_tmpl0 : list (list nat) := [[1; 1; 3]; [3; 1; 4]; [5; 2; 7]].
Definition fgdim_tmpl : list nat := [2; 3; 2].
Definition fgid_tmpl0 : list nat := [6; 1; 5].
Definition fgid_tmpl1 : list nat := [1; 1; 2].
Definition fgid_tmpl2 : list nat := [3; 1; 4].
Definition rd2 (l : list (list nat)) (i j : nat) : outcome nat := r <- rd l i ;; rd r j.
Definition rd3 (l : list (list (list nat))) (i j k : nat) : outcome nat := r <- rd l i ;; rd2 r j k.

(** [(IG%NX) ? 1 : (IG ? 2 : 0)], Mesh_MSTK.cc:4688, 4693, 4698 and so on; remainder by 0 is undefined *)
Definition side_ix (g n : nat) : outcome nat := if n =? 0 then UB else Ok (if negb (g mod n =? 0) then 1 else if negb (g =? 0) then 2 else 0).
(** [(IG == NX) ? X1 : X0 + IG*DX] with [DX = (X1-X0)/NX], Mesh_MSTK.cc:4674-4676, 4687, 4692, 4697 *)
Definition coord (a b : R) (n g : nat) : R := if g =? n then b else (a + INR g * ((b - a) / INR n))%R.

(** three nested counted loops that append what the body makes *)
Definition loop3 {A} (n1 n2 n3 : nat) (body : nat -> nat -> nat -> outcome A) : outcome (list A) :=
  for_lt n1 (fun i out => for_lt n2 (fun j out => for_lt n3 (fun k out => x <- body i j k ;; Ok (out ++ [x])) out) out) [].
(** the array verts[i][j][k]: [keys] are the index triples in the order of the assignments [verts[i][j][k] = mv], one per vertex made
    (Mesh_MSTK.cc:4678-4683, 4702); an element never assigned is uninitialised memory (or outside the array) *)
Definition triple := (nat * nat * nat)%type.
Definition triple_eqb (a b : triple) : bool := (fst (fst a) =? fst (fst b)) && (snd (fst a) =? snd (fst b)) && (snd a =? snd b).
Fixpoint last_pos (keys : list triple) (x : triple) (h : nat) (found : option nat) : option nat :=
  match keys with [] => found | a :: r => last_pos r x (S h) (if triple_eqb a x then Some h else found) end.
Definition vert_handle (keys : list triple) (i j k : nat) : outcome nat :=
  match last_pos keys (i, j, k) 0 None with Some h => Ok h | None => UB end.

Section Gen3.
Variables (X0 Y0 Z0 X1 Y1 Z1 : R) (NX NY NZ i0 j0 k0 nx ny nz : nat).
(** Mesh_MSTK.cc:4685-4716 *)
Definition gen_vert (i j k : nat) : outcome (triple * mvert) :=
  let IG := i0 + i in let JG := j0 + j in let KG := k0 + k in
  ii <- side_ix IG NX ;; jj <- side_ix JG NY ;; kk <- side_ix KG NZ ;;
  gdim <- rd3 vgdim_tmpl ii jj kk ;; gid <- rd3 vgid_tmpl ii jj kk ;;
  Ok ((i, j, k), MVert (coord X0 X1 NX IG, coord Y0 Y1 NY JG, coord Z0 Z1 NZ KG) gdim gid (IG * (NY + 1) * (NZ + 1) + JG * (NZ + 1) + KG + 1)).
Variable keys : list triple.
Let vh := vert_handle keys.
(** Z direction edges, Mesh_MSTK.cc:4725-4751 *)
Definition gen_edge_z (i j k : nat) : outcome ment :=
  let IG := i0 + i in let JG := j0 + j in let KG := k0 + k in
  a <- vh i j k ;; b <- vh i j (k + 1) ;;
  ii <- side_ix IG NX ;; jj <- side_ix JG NY ;; gdim <- rd2 egdim_tmpl ii jj ;; gid <- rd2 egid_tmpl2 ii jj ;;
  let L0 := IG * ((NY + 1) * NZ + NY * (NZ + 1) + (NY + 1) * (NZ + 1)) in
  Ok (MEnt [a; b] gdim gid (L0 + JG * NZ + KG + 1)).
(** Y direction edges, Mesh_MSTK.cc:4754-4780 *)
Definition gen_edge_y (i j k : nat) : outcome ment :=
  let IG := i0 + i in let JG := j0 + j in let KG := k0 + k in
  a <- vh i j k ;; b <- vh i (j + 1) k ;;
  ii <- side_ix IG NX ;; kk <- side_ix KG NZ ;; gdim <- rd2 egdim_tmpl ii kk ;; gid <- rd2 egid_tmpl1 ii kk ;;
  let L0 := IG * ((NY + 1) * NZ + NY * (NZ + 1) + (NY + 1) * (NZ + 1)) in
  Ok (MEnt [a; b] gdim gid (L0 + (NY + 1) * NZ + JG * (NZ + 1) + KG + 1)).
(** X direction edges, Mesh_MSTK.cc:4783-4809; here the k loop is outside the j loop *)
Definition gen_edge_x (i k j : nat) : outcome ment :=
  let IG := i0 + i in let JG := j0 + j in let KG := k0 + k in
  a <- vh i j k ;; b <- vh (i + 1) j k ;;
  jj <- side_ix JG NY ;; kk <- side_ix KG NZ ;; gdim <- rd2 egdim_tmpl jj kk ;; gid <- rd2 egid_tmpl0 jj kk ;;
  let L0 := IG * ((NY + 1) * NZ + NY * (NZ + 1) + (NY + 1) * (NZ + 1)) in
  Ok (MEnt [a; b] gdim gid (L0 + (NY + 1) * NZ + NY * (NZ + 1) + JG * (NZ + 1) + KG + 1)).
(** faces normal to X, Mesh_MSTK.cc:4816-4841 *)
Definition gen_face_x (i j k : nat) : outcome ment :=
  let IG := i0 + i in let JG := j0 + j in let KG := k0 + k in
  a <- vh i j k ;; b <- vh i (j + 1) k ;; c <- vh i (j + 1) (k + 1) ;; d <- vh i j (k + 1) ;;
  ii <- side_ix IG NX ;; gdim <- rd fgdim_tmpl ii ;; gid <- rd fgid_tmpl0 ii ;;
  let L0 := IG * (NY * NZ + NY * (NZ + 1) + NZ * (NY + 1)) in
  Ok (MEnt [a; b; c; d] gdim gid (L0 + JG * NZ + KG + 1)).
(** faces normal to Y, Mesh_MSTK.cc:4844-4869 *)
Definition gen_face_y (i j k : nat) : outcome ment :=
  let IG := i0 + i in let JG := j0 + j in let KG := k0 + k in
  a <- vh i j k ;; b <- vh (i + 1) j k ;; c <- vh (i + 1) j (k + 1) ;; d <- vh i j (k + 1) ;;
  jj <- side_ix JG NY ;; gdim <- rd fgdim_tmpl jj ;; gid <- rd fgid_tmpl1 jj ;;
  let L0 := IG * (NY * NZ + NY * (NZ + 1) + NZ * (NY + 1)) in
  Ok (MEnt [a; b; c; d] gdim gid (L0 + NY * NZ + JG * NZ + KG + 1)).
(** faces normal to Z, Mesh_MSTK.cc:4872-4897 *)
Definition gen_face_z (i j k : nat) : outcome ment :=
  let IG := i0 + i in let JG := j0 + j in let KG := k0 + k in
  a <- vh i j k ;; b <- vh (i + 1) j k ;; c <- vh (i + 1) (j + 1) k ;; d <- vh i (j + 1) k ;;
  kk <- side_ix KG NZ ;; gdim <- rd fgdim_tmpl kk ;; gid <- rd fgid_tmpl2 kk ;;
  let L0 := IG * (NY * NZ + NY * (NZ + 1) + NZ * (NY + 1)) in
  Ok (MEnt [a; b; c; d] gdim gid (L0 + NY * NZ + (NY + 1) * NZ + JG * (NZ + 1) + KG + 1)).
(** regions, Mesh_MSTK.cc:4902-4924 *)
Definition gen_reg (i j k : nat) : outcome mreg :=
  let IG := i0 + i in let JG := j0 + j in let KG := k0 + k in
  a <- vh i j k ;; b <- vh (i + 1) j k ;; c <- vh (i + 1) (j + 1) k ;; d <- vh i (j + 1) k ;;
  e <- vh i j (k + 1) ;; f <- vh (i + 1) j (k + 1) ;; g <- vh (i + 1) (j + 1) (k + 1) ;; h <- vh i (j + 1) (k + 1) ;;
  Ok (MReg [a; b; c; d; e; f; g; h] 1 (IG * NY * NZ + JG * NZ + KG + 1)).
Definition gen3_body (vs : list (triple * mvert)) : outcome mmesh3 :=
  ez <- loop3 (nx + 1) (ny + 1) nz gen_edge_z ;; ey <- loop3 (nx + 1) ny (nz + 1) gen_edge_y ;; ex <- loop3 nx (nz + 1) (ny + 1) gen_edge_x ;;
  fx <- loop3 (nx + 1) ny nz gen_face_x ;; fy <- loop3 nx (ny + 1) nz gen_face_y ;; fz <- loop3 nx ny (nz + 1) gen_face_z ;;
  rs <- loop3 nx ny nz gen_reg ;;
  Ok (MMesh3 (map snd vs) (ez ++ ey ++ ex) (fx ++ fy ++ fz) rs).
End Gen3.
(** [if (nx == 0) nx = NX;], Mesh_MSTK.cc:4670-4672, 4943-4944 *)
Definition defaulted (n N : nat) : nat := if n =? 0 then N else n.
(** generate_regular_mesh in 3D, Mesh_MSTK.cc:4592-4924 *)
Definition generate3 (X0 Y0 Z0 X1 Y1 Z1 : R) (NX NY NZ i0 j0 k0 nx ny nz : nat) : outcome mmesh3 :=
  let nx := defaulted nx NX in let ny := defaulted ny NY in let nz := defaulted nz NZ in
  vs <- loop3 (nx + 1) (ny + 1) (nz + 1) (gen_vert X0 Y0 Z0 X1 Y1 Z1 NX NY NZ i0 j0 k0) ;;
  gen3_body NX NY NZ i0 j0 k0 nx ny nz (map fst vs) vs.

(** ** the 2D generator *)
(** a face of a surface mesh: its edges in order, each with the flag of MF_Set_Edges (true: the face runs along the edge) *)
Record mface2 := MFace2 { mf_edges : list (nat * bool); mf_gdim : nat; mf_gid : nat; mf_glob : nat }.
Record mmesh2 := MMesh2 { m2_verts : list mvert; m2_edges : list ment; m2_faces : list mface2 }.
(** MVs_CommonEdge: the edge of the mesh that has these two end points, in either order, if there is one *)
Fixpoint common_edge (es : list ment) (a b h : nat) : option nat :=
  match es with
  | [] => None
  | e :: r => match me_verts e with
              | [p; q] => if ((p =? a) && (q =? b)) || ((p =? b) && (q =? a)) then Some h else common_edge r a b (S h)
              | _ => common_edge r a b (S h)
              end
  end.
(** one of the four edges of a cell: [fedges[k] = MVs_CommonEdge(v0, v1); if (fedges[k]) dir[k] = (ME_Vertex(fedges[k], 0) == v0) ? 1 : 0;
    else { me = ME_New ... ; dir[k] = 1; }], Mesh_MSTK.cc:5009-5032, 5036-5057, 5061-5082, 5086-5107 *)
Definition cell_edge (es : list ment) (v0 v1 gdim gid glob : nat) : outcome (list ment * (nat * bool)) :=
  match common_edge es v0 v1 0 with
  | Some h => e <- rd es h ;; a <- rd (me_verts e) 0 ;; Ok (es, (h, a =? v0))
  | None => Ok (es ++ [MEnt [v0; v1] gdim gid glob], (length es, true))
  end.
Section Gen2.
Variables (X0 Y0 X1 Y1 : R) (NX NY i0 j0 nx ny : nat).
(** Mesh_MSTK.cc:4954-5003; the array verts[i][j] is kept like the one of the 3D generator, with 0 as third index *)
Definition gen_vert2 (i j : nat) : outcome (triple * mvert) :=
  let IG := i0 + i in let JG := j0 + j in
  let '(gdim, gid) :=
    if IG =? 0 then if JG =? 0 then (0, 1) else if JG =? NY then (0, 4) else (1, 4)
    else if IG =? NX then if JG =? 0 then (0, 2) else if JG =? NY then (0, 3) else (1, 2)
    else if JG =? 0 then (1, 1) else if JG =? NY then (1, 3) else (2, 1) in
  Ok ((i, j, 0), MVert (coord X0 X1 NX IG, coord Y0 Y1 NY JG, 0%R) gdim gid (IG * (NY + 1) + JG + 1)).
Variable keys : list triple.
(** one cell, Mesh_MSTK.cc:5006-5116 *)
Definition gen_cell2 (i j : nat) (st : list ment * list mface2) : outcome (list ment * list mface2) :=
  let '(es, fs) := st in
  let IG := i0 + i in let JG := j0 + j in
  let L0 := IG * NY + IG * (NY + 1) in
  a <- vert_handle keys i j 0 ;; b <- vert_handle keys (i + 1) j 0 ;;
  let g := if JG =? 0 then (1, 1) else (2, 1) in
  r <- cell_edge es a b (fst g) (snd g) (L0 + NY + JG + 1) ;; let es := fst r in let e0 := snd r in
  a <- vert_handle keys (i + 1) j 0 ;; b <- vert_handle keys (i + 1) (j + 1) 0 ;;
  let g := if IG =? NX - 1 then (1, 2) else (2, 1) in
  r <- cell_edge es a b (fst g) (snd g) (L0 + NY + (NY + 1) + JG + 1) ;; let es := fst r in let e1 := snd r in
  a <- vert_handle keys (i + 1) (j + 1) 0 ;; b <- vert_handle keys i (j + 1) 0 ;;
  let g := if JG =? NY - 1 then (1, 3) else (2, 1) in
  r <- cell_edge es a b (fst g) (snd g) (L0 + NY + JG + 1 + 1) ;; let es := fst r in let e2 := snd r in
  a <- vert_handle keys i (j + 1) 0 ;; b <- vert_handle keys i j 0 ;;
  let g := if IG =? 0 then (1, 4) else (2, 1) in
  r <- cell_edge es a b (fst g) (snd g) (L0 + JG + 1) ;; let es := fst r in let e3 := snd r in
  Ok (es, fs ++ [MFace2 [e0; e1; e2; e3] 2 1 (IG * NY + JG + 1)]).
End Gen2.
(** generate_regular_mesh in 2D, Mesh_MSTK.cc:4930-5134 *)
Definition generate2 (X0 Y0 X1 Y1 : R) (NX NY i0 j0 nx ny : nat) : outcome mmesh2 :=
  let nx := defaulted nx NX in let ny := defaulted ny NY in
  vs <- loop3 (nx + 1) (ny + 1) 1 (fun i j _ => gen_vert2 X0 Y0 X1 Y1 NX NY i0 j0 i j) ;;
  st <- for_lt nx (fun i st => for_lt ny (fun j st => gen_cell2 NX NY i0 j0 (map fst vs) i j st) st) ([], []) ;;
  Ok (MMesh2 (map snd vs) (fst st) (snd st)).
