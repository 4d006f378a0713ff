(** Model of GeometricModel (src/geometry/GeometricModel.cc:74-288) and Domain (src/geometry/Domain.cc:73-188) as far as
    their registries go, and of the dimensions the region constructors give (LogicalRegion.cc:71-105,
    LabeledSetRegion.cc:71-86, BoxRegion.cc:70-91).  RegionPtr = position in an abstract supply of regions: a region is
    represented by its record. *)
From Coq Require Import String.
From Verif Require Import Base.
Set Implicit Arguments.

Inductive region_kind := RBox | RPlane | RPoint | RPolygon | RLogical | RLabeledSet.
(** Region.hh:100-190 *)
Record region := Region { rg_name : string; rg_id : nat; rg_dim : nat; rg_kind : region_kind }.

Record geo_model := GM { gm_dim : nat; gm_regions : list region }.

(** GeometricModel(dim), GeometricModel.cc:74-82 *)
Definition new_model (dim : nat) : outcome geo_model :=
  if negb (dim =? 2) && negb (dim =? 3) then Thrown else Ok (GM dim []).
(** GeometricModel(dim, regions), GeometricModel.cc:202-208: no check *)
Definition new_model_list (dim : nat) (rs : list region) : outcome geo_model := Ok (GM dim rs).
(** Add_Region, GeometricModel.cc:213-221 *)
Definition Add_Region (g : geo_model) (r : region) : outcome geo_model :=
  if gm_dim g <? rg_dim r then Thrown else Ok (GM (gm_dim g) (gm_regions g ++ [r])).
(** FindRegion(id), GeometricModel.cc:242-260 *)
Fixpoint find_id (l : list region) (id : nat) : option region :=
  match l with [] => None | r :: t => if rg_id r =? id then Some r else find_id t id end.
Definition FindRegion_id (g : geo_model) (id : nat) : option region := find_id (gm_regions g) id.
(** FindRegion(name), GeometricModel.cc:265-283 *)
Fixpoint find_name (l : list region) (n : string) : option region :=
  match l with [] => None | r :: t => if String.eqb (rg_name r) n then Some r else find_name t n end.
Definition FindRegion_name (g : geo_model) (n : string) : option region := find_name (gm_regions g) n.

(** a history of Add_Region calls; a rejected call leaves the model unchanged *)
Definition add_step (g : geo_model) (r : region) : geo_model := match Add_Region g r with Ok g' => g' | _ => g end.
Definition add_all (g : geo_model) (l : list region) : geo_model := fold_left add_step l g.

(** dimension a LogicalRegion or LabeledSetRegion gets: always 3, LogicalRegion.cc:71-105, LabeledSetRegion.cc:71-86 *)
Definition logical_region (n : string) (id : nat) : region := Region n id 3 RLogical.
Definition labeled_region (n : string) (id : nat) : region := Region n id 3 RLabeledSet.

(** ** Domain *)
Record domain := Dom { dom_dim : nat; dom_models : list geo_model; dom_free : list region }.
(** Domain(dim), Domain.cc:73-82 *)
Definition new_domain (dim : nat) : outcome domain :=
  if (dim <? 2) || (3 <? dim) then Thrown else Ok (Dom dim [] []).
(** Domain(dim, models, regions), Domain.cc:117-127 *)
Definition new_domain_list (dim : nat) (ms : list geo_model) (rs : list region) : outcome domain :=
  if negb (dim =? 2) || negb (dim =? 3) then Thrown else Ok (Dom dim ms rs).
(** Add_Geometric_Model, Domain.cc:133-143 *)
Definition Add_Geometric_Model (d : domain) (g : geo_model) : outcome domain :=
  if negb (dom_dim d =? gm_dim g) then Thrown else Ok (Dom (dom_dim d) (dom_models d ++ [g]) (dom_free d)).
(** Add_Free_Region, Domain.cc:148-156 *)
Definition Add_Free_Region (d : domain) (r : region) : outcome domain :=
  if dom_dim d <? rg_dim r then Thrown else Ok (Dom (dom_dim d) (dom_models d) (dom_free d ++ [r])).
(** Num_*/_i getters, Domain.cc:160-188 *)
Definition Geometric_Model_i (d : domain) (i : nat) : outcome geo_model := rd (dom_models d) i.
Definition Free_Region_i (d : domain) (i : nat) : outcome region := rd (dom_free d) i.
(** copy constructor, Domain.cc:86-104: pushes the models and regions of the old domain one by one *)
Fixpoint copy_list {A} (get : nat -> outcome A) (n i : nat) (acc : list A) : outcome (list A) :=
  match n with O => Ok acc | S k => x <- get i ;; copy_list get k (S i) (acc ++ [x]) end.
Definition copy_domain (d : domain) : outcome domain :=
  ms <- copy_list (Geometric_Model_i d) (length (dom_models d)) 0 [] ;;
  rs <- copy_list (Free_Region_i d) (length (dom_free d)) 0 [] ;;
  Ok (Dom (dom_dim d) ms rs).
