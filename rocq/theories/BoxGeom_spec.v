(** Specification vocabulary for the geometry of box meshes. *)
From Coq Require Import Reals.
From Verif Require Import Base Loop Defs Factory SimpleMesh SimpleMesh_spec SimpleTopo SimpleGeom Cache Point MeshGeom BoxGeom.
Set Implicit Arguments.
Local Open Scope R_scope.

(** a mesh object made by the 3D constructor of Mesh_simple with d cells, with faces requested *)
Definition box_object (d : dims) (M : gmesh) : Prop := exists v0 gx gy gz fl m cm,
  make_simple_3d v0 d gx gy gz (fl_faces (close_flags fl)) false = Ok m /\ fl_faces (close_flags fl) = true /\
  cache_extra_variables (simple_topo m) (close_flags fl) = Ok cm /\ M = box_g m cm.
(** the nodes are where the grid lines x = gx i, y = gy j, z = gz k meet *)
Definition rectilinear (d : dims) (gx gy gz : nat -> R) (X : coordinates) : Prop :=
  length X = ((nx d + 1) * (ny d + 1) * (nz d + 1))%nat /\
  forall i j k, node_at d (i, j, k) -> nth_error X (nid d (i, j, k)) = Some (Pt 3 (gx i) (gy j) (gz k)).
(** the grid lines follow one another in increasing order *)
Definition increasing (n : nat) (g : nat -> R) : Prop := forall i, (i < n)%nat -> g i < g (i + 1)%nat.
(** width and middle of the i-th interval *)
Definition width (g : nat -> R) (i : nat) : R := g (i + 1)%nat - g i.
Definition middle (g : nat -> R) (i : nat) : R := (g i + g (i + 1)%nat) / 2.
(** area and centre of a grid square *)
Definition square_area (gx gy gz : nat -> R) (s : sface) : R :=
  match s with
  | FXY i j _ => width gx i * width gy j
  | FXZ i _ k => width gx i * width gz k
  | FYZ _ j k => width gy j * width gz k
  end.
Definition square_centre (gx gy gz : nat -> R) (s : sface) : point :=
  match s with
  | FXY i j k => Pt 3 (middle gx i) (middle gy j) (gz k)
  | FXZ i j k => Pt 3 (middle gx i) (gy j) (middle gz k)
  | FYZ i j k => Pt 3 (gx i) (middle gy j) (middle gz k)
  end.
(** the vector along the axis normal to the square with coordinate a on it *)
Definition along_axis (s : sface) (a : R) : point :=
  match s with FXY _ _ _ => Pt 3 0 0 a | FXZ _ _ _ => Pt 3 0 a 0 | FYZ _ _ _ => Pt 3 a 0 0 end.
(** the square is the side of the cell with the larger coordinate on its axis *)
Definition upper_side (s : sface) (p : pos3) : bool :=
  let '(i, j, k) := p in match s with FXY _ _ c => c =? k + 1 | FXZ _ b _ => b =? j + 1 | FYZ a _ _ => a =? i + 1 end%nat.
