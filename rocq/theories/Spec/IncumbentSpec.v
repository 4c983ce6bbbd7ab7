(** Vocabulary for integer solutions met during a tree search. *)
From Verif Require Import Prelude Model.Tolerance Model.LP Model.Incumbent Spec.LPSpec.
#[local] Open Scope Q_scope.

(** Points within the bounds, and integer where required. *)
Definition in_box_int (n : nat) (lo up : nat -> option Q) (ints : nat -> bool) (x : nat -> Q) : Prop :=
  forall j, (j < n)%nat -> above (lo j) (x j) /\ below (up j) (x j) /\ (ints j = true -> exists z : Z, x j == inject_Z z).
(** Bounds that make sense: not crossing, and integer on integer columns. *)
Definition bounds_sound (n : nat) (lo up : nat -> option Q) (ints : nat -> bool) : Prop :=
  forall j, (j < n)%nat ->
    (forall l u, lo j = Some l -> up j = Some u -> l <= u) /\
    (ints j = true -> (forall l, lo j = Some l -> exists z : Z, l == inject_Z z) /\ (forall u, up j = Some u -> exists z : Z, u == inject_Z z)).

(** Solutions announced in an event, with their objectives. *)
Definition announced (v : found) (x : nat -> Q) (o : Q) : Prop := (x, o) = (v_best v, v_obj v) \/ v_good v = Some (x, o).
(** Cbc never raises its cutoff, and lowers it to the objective of every solution that improves on it. *)
Definition cutoffs_follow (es : list ievent) : Prop :=
  forall a v b w c, es = a ++ IFound v :: b ++ IFound w :: c ->
    v_cut w <= v_cut v /\ (forall x o, announced v x o -> o < v_cut v -> v_cut w <= o).

(** A point satisfies a row of the solver. *)
Definition row_sat (n : nat) (r : srow) (x : nat -> Q) : Prop :=
  let act := dot n (w_coef r) x in
  (w_sense r = SG -> w_rhs r <= act) /\ (w_sense r = SL -> act <= w_rhs r) /\ (w_sense r = SE -> act == w_rhs r).
Definition with_rows (q : nodeq) (rows : list srow) : nodeq :=
  {| q_n := q_n q; q_feas := q_feas q; q_child := q_child q; q_sol := q_sol q; q_lo := q_lo q; q_up := q_up q;
     q_obj := q_obj q; q_cut := q_cut q; q_inc := q_inc q; q_mobj := q_mobj q; q_olo := q_olo q; q_oup := q_oup q;
     q_int := q_int q; q_rows := rows; q_collo := q_collo q; q_cost := q_cost q; q_off := q_off q; q_eps := q_eps q |}.
