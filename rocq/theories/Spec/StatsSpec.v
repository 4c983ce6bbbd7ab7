(** Textbook statistics of a data list, written without reference to the model. *)
From Coq Require Import Reals List ZArith.
Import ListNotations.
Open Scope R_scope.

Definition Rsum (l : list R) : R := fold_right Rplus 0 l.
Definition mean (l : list R) : R := Rsum l / INR (length l).
(** population variance: average squared distance from the mean *)
Definition variance (l : list R) : R :=
  Rsum (map (fun x => (x - mean l) * (x - mean l)) l) / INR (length l).
Definition std_dev (l : list R) : R := sqrt (variance l).
(** [m] is the least element of [l] *)
Definition is_min (m : R) (l : list R) : Prop := In m l /\ forall x, In x l -> m <= x.
Definition is_max (m : R) (l : list R) : Prop := In m l /\ forall x, In x l -> x <= m.
