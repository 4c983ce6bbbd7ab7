(** What the list of basic variables reported by the LP solver has to be. *)
From Verif Require Import Prelude Model.BasisStatus.

(** [B] lists, row by row, the variable basic in that row: as many as rows, none twice, exactly the
    variables (columns and slacks) whose status is basic. *)
Definition basics_of (b : basisinfo) (n m : nat) (B : list nat) : Prop :=
  length B = m /\ NoDup B /\
  forall v, In v B <-> (v < n + m)%nat /\ isBasicVar b n v = true.
