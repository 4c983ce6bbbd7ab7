(** Specification vocabulary for the bookkeeping of generated cuts. *)
From Verif Require Import Prelude Model.Generator.

(** Number of occurrences of a cut type / heuristic in a list of labels. *)
Fixpoint count_type (t : cuttype) (l : list cuttype) : Z :=
  match l with [] => 0 | x :: r => (if cuttype_eqb x t then 1 else 0) + count_type t r end%Z.
Fixpoint count_heur (h : objtype) (l : list objtype) : Z :=
  match l with [] => 0 | x :: r => (if objtype_eqb x h then 1 else 0) + count_heur h r end%Z.

(** One label of every kind per cut produced in this call, and counters equal to what the labels say. *)
Definition aligned (g : gstate) : Prop :=
  length (g_type g) = g_num_cuts g /\ length (g_heur g) = g_num_cuts g /\
  length (g_disj g) = g_num_cuts g /\
  length (g_cuts g) = (g_init g + g_num_cuts g)%nat /\
  (forall t, g_ntype g t = count_type t (g_type g)) /\
  (forall h, g_nheur g h = count_heur h (g_heur g)).

(** Every produced cut together with its type and heuristic labels satisfies [R]. *)
Definition labelled (R : cut -> cuttype -> objtype -> Prop) (g : gstate) : Prop :=
  forall i c t h, nth_error (g_cuts g) (g_init g + i) = Some c ->
    nth_error (g_type g) i = Some t -> nth_error (g_heur g) i = Some h -> R (ec c) t h.

Definition all_types : list cuttype := [ONE_SIDED_CUT; OPTIMALITY_CUT; VPC; GMIC].
Definition all_heurs : list objtype :=
  [DUMMY_OBJ; ALL_ONES; CUT_VERTICES; ITER_BILINEAR; UNIT_VECTORS; DISJ_LB; TIGHT_POINTS;
   TIGHT_RAYS; TIGHT_POINTS2; TIGHT_RAYS2; USER; OBJ_CUT; ONE_SIDED].
Fixpoint Zsum (l : list Z) : Z := match l with [] => 0 | x :: r => x + Zsum r end%Z.
