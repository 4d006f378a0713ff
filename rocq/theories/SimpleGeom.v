(** The box mesh with real coordinates (Mesh_simple.cc:373-385; rounding not modelled: [R] for double). *)
From Coq Require Import Reals.
From Verif Require Import Base Loop SimpleMesh.
Set Implicit Arguments.
Local Open Scope R_scope.

(** [hx = (x1_ - x0_)/nx_; ... coordinates_ = x0_ + ix*hx], Mesh_simple.cc:373-375 and 382-384 *)
Definition grid_coord (lo hi : R) (n : nat) (i : nat) : R := lo + INR i * ((hi - lo) / INR n).

(** the 3D constructor on the box [x0,x1]x[y0,y1]x[z0,z1], Mesh_simple.cc:59-100 *)
Definition make_box (x0 y0 z0 x1 y1 z1 : R) (d : dims) (fr : bool) : outcome (smesh R) :=
  make_simple_3d 0 d (grid_coord x0 x1 (nx d)) (grid_coord y0 y1 (ny d)) (grid_coord z0 z1 (nz d)) fr false.
