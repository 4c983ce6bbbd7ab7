(** The points and the objective of a CPLEX model, as CPLEX documents them. *)
From Verif Require Import Prelude Model.Convert.
#[local] Open Scope Q_scope.

(** CPX_INFBOUND: a bound that large is no bound. *)
Definition cpx_inf : Q := inject_Z (10 ^ 20).
(** The coefficient of column [j] in row [i]; the activity of a row. *)
Definition coefficient (M : cpxmodel) (i j : nat) : Q := Qsumf snd (filter (fun e => Nat.eqb (fst e) i) (cm_col M j)).
Definition cpx_activity (M : cpxmodel) (i : nat) (x : nat -> Q) : Q := Qsumf (fun j => coefficient M i j * x j) (seq 0 (cm_n M)).
(** Rows of sense G, L, E, and ranged rows (R: between rhs and rhs + range). *)
Definition cpx_row (M : cpxmodel) (range : nat -> Q) (i : nat) (x : nat -> Q) : Prop :=
  let a := cpx_activity M i x in let r := cm_rhs M i in
  (cm_sense M i = "G"%char -> r <= a) /\ (cm_sense M i = "L"%char -> a <= r) /\ (cm_sense M i = "E"%char -> a == r) /\
  (cm_sense M i = "R"%char -> (0 <= range i -> r <= a <= r + range i) /\ (range i <= 0 -> r + range i <= a <= r)).
Definition type_of (M : cpxmodel) (j : nat) : ascii := match cm_type M with Some t => t j | None => "C"%char end.
Definition cpx_bounds (M : cpxmodel) (j : nat) (v : Q) : Prop :=
  (- cpx_inf < cm_lb M j -> cm_lb M j <= v) /\ (cm_ub M j < cpx_inf -> v <= cm_ub M j).
(** Columns: continuous, binary, integer, semi-continuous, semi-integer. *)
Definition cpx_col (M : cpxmodel) (j : nat) (v : Q) : Prop :=
  let t := type_of M j in
  (t = "C"%char \/ t = "B"%char \/ t = "I"%char -> cpx_bounds M j v) /\
  (t = "S"%char \/ t = "N"%char -> v == 0 \/ cpx_bounds M j v) /\
  (t = "B"%char \/ t = "I"%char \/ t = "N"%char -> exists z : Z, v == inject_Z z).
Definition cpx_point (M : cpxmodel) (range : nat -> Q) (x : nat -> Q) : Prop :=
  (forall i, (i < cm_m M)%nat -> cpx_row M range i x) /\ (forall j, (j < cm_n M)%nat -> cpx_col M j (x j)).
Definition cpx_value (M : cpxmodel) (x : nat -> Q) : Q := Qsumf (fun j => cm_obj M j * x j) (seq 0 (cm_n M)) + cm_off M.

(** Models with rows of sense G, L, E, columns of type C, B, I, and the numbers within CPLEX's infinity; binary columns have
    the bounds 0 and 1. *)
Definition plain (M : cpxmodel) : Prop :=
  (forall i, (i < cm_m M)%nat -> cm_sense M i = "G"%char \/ cm_sense M i = "L"%char \/ cm_sense M i = "E"%char) /\
  (exists t, cm_type M = Some t /\ forall j, (j < cm_n M)%nat -> t j = "C"%char \/ t j = "B"%char \/ t j = "I"%char) /\
  (forall i, (i < cm_m M)%nat -> - cpx_inf <= cm_rhs M i <= cpx_inf) /\
  (forall j, (j < cm_n M)%nat -> - cpx_inf <= cm_lb M j /\ cm_ub M j <= cpx_inf) /\
  (forall j, (j < cm_n M)%nat -> type_of M j = "B"%char -> cm_lb M j == 0 /\ cm_ub M j == 1) /\
  (cm_sen M = 1 \/ cm_sen M = -1)%Z.
