(** What bound changes, terms and disjunctions mean for a point. *)
From Verif Require Import Prelude Model.LP Model.Disjunction Spec.LPSpec.

(** The point respects the changed bound. *)
Definition sat_change (c : bchange) (x : nat -> Q) : Prop :=
  if (bc_bound c <=? 0)%Z then bc_val c <= x (bc_var c) else x (bc_var c) <= bc_val c.
Definition sat_row (r : row) (x : nat -> Q) : Prop :=
  above (rlo r) (pdot (rcoef r) x) /\ below (rup r) (pdot (rcoef r) x).
(** The point lies in the term (beyond the base problem). *)
Definition in_term (t : termdata) (x : nat -> Q) : Prop :=
  (forall c, In c (td_changes t) -> sat_change c x) /\ (forall r, In r (td_ineqs t) -> sat_row r x).
(** The point respects what is common to all terms. *)
Definition sat_common (d : disj) (x : nat -> Q) : Prop :=
  (forall c, In c (d_common d) -> sat_change c x) /\ (forall r, In r (d_common_ineqs d) -> sat_row r x).
(** The disjunction contains the point. *)
Definition in_disj (d : disj) (x : nat -> Q) : Prop := sat_common d x /\ exists t, In t (d_terms d) /\ in_term t x.

(** A list of bound changes that only ever tightens: each change is at least as tight as the bound of the
    problem and as every earlier change of the same bound. *)
Definition same_side (c1 c2 : bchange) : Prop :=
  bc_var c1 = bc_var c2 /\ ((bc_bound c1 <=? 0)%Z = (bc_bound c2 <=? 0)%Z).
Definition not_looser (c1 c2 : bchange) : Prop :=
  if (bc_bound c2 <=? 0)%Z then bc_val c1 <= bc_val c2 else bc_val c2 <= bc_val c1.
Definition tightening (P : lp) (cs : list bchange) : Prop :=
  (forall c, In c cs -> (bc_var c < ncols P)%nat /\
     (if (bc_bound c <=? 0)%Z then above (clo P (bc_var c)) (bc_val c) else below (cup P (bc_var c)) (bc_val c))) /\
  ForallOrdPairs (fun c1 c2 => same_side c1 c2 -> not_looser c1 c2) cs.
