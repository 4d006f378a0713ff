(** Vocabulary for the mesh-set properties C05-C14, in terms of the queries a user can make:
    entities<OWNED>, entities<GHOST>, entities<ALL> and index_in_set. *)
From Coq Require Import String Permutation.
From Verif Require Import Base Defs MeshSet.
Set Implicit Arguments.

(** index_in_set(e) is the position of e in entities<ALL>() for members and -1 for non-members *)
Definition index_agrees (types : list entity_type) (s : mset) : Prop :=
  forall e, e < length types -> exists i, index_in_set s e = Ok i /\
    ((exists k, i = Z.of_nat k /\ nth_error (ms_all s) k = Some e) \/ (i = (-1)%Z /\ ~ In e (ms_all s))).

(** the three lists describe one duplicate-free set of owned and ghost mesh entities *)
Record wf_set (types : list entity_type) (s : mset) : Prop := {
  wf_owned_type : forall e, In e (ms_owned s) -> nth_error types e = Some PARALLEL_OWNED;
  wf_ghost_type : forall e, In e (ms_ghost s) -> nth_error types e = Some PARALLEL_GHOST;
  wf_owned_nodup : NoDup (ms_owned s);
  wf_ghost_nodup : NoDup (ms_ghost s);
  wf_all : Permutation (ms_all s) (ms_owned s ++ ms_ghost s);
  wf_rev_len : length (ms_rev s) = if ms_have_rev s then length types else 0
}.

(** the documented layout: owned entities first, then ghosts *)
Definition ordered (s : mset) : Prop := ms_all s = ms_owned s ++ ms_ghost s.

(** everything a user relies on *)
Definition consistent (types : list entity_type) (s : mset) : Prop :=
  wf_set types s /\ ordered s /\ (ms_have_rev s = true -> index_agrees types s).

(** the types of a mesh in Jali's numbering: owned entities come first, then ghosts *)
Definition owned_first (no ng : nat) : list entity_type := repeat PARALLEL_OWNED no ++ repeat PARALLEL_GHOST ng.
