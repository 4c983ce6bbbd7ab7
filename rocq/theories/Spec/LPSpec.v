(** What it means for a point to satisfy a linear program, a cut, integrality. *)
From Verif Require Import Prelude Model.LP.

Definition above (b : option Q) (v : Q) : Prop := match b with Some q => q <= v | None => True end.
Definition below (b : option Q) (v : Q) : Prop := match b with Some q => v <= q | None => True end.

Definition in_box (P : lp) (x : nat -> Q) : Prop :=
  forall j, (j < ncols P)%nat -> above (clo P j) (x j) /\ below (cup P j) (x j).
Definition in_rows (P : lp) (x : nat -> Q) : Prop :=
  forall i, (i < nrows P)%nat ->
    above (rlo (rows P i)) (pdot (rcoef (rows P i)) x) /\
    below (rup (rows P i)) (pdot (rcoef (rows P i)) x).
Definition feasible (P : lp) (x : nat -> Q) : Prop := in_box P x /\ in_rows P x.

Definition satisfies_cut (c : cut) (x : nat -> Q) : Prop := crhs c <= pdot (crow c) x.

Definition integral (ints : nat -> bool) (n : nat) (x : nat -> Q) : Prop :=
  forall j, (j < n)%nat -> ints j = true -> exists z : Z, x j == inject_Z z.
