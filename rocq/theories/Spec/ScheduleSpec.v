(** What a list of solves made during targeted cut generation should look like. *)
From Verif Require Import Prelude Model.LP Model.TightOnPoint Model.Schedule Spec.LPSpec Properties.C22_TightOnPoint.
#[local] Open Scope Q_scope.

(** Some earlier solve (other than those of the bilinear procedure, which keeps no counts) was optimal and had
    the row, or the column's lower bound, tight. *)
Definition had_tight (E : senv) (sel : solved -> nat -> bool) (earlier : list tried) (i : nat) : Prop :=
  exists k e, nth_error earlier k = Some e /\ tr_kind e <> KBilinear /\ so_optimal (se_solve E k) = true /\ sel (se_solve E k) i = true.
(** The ray was an objective of the first pass and that objective failed. *)
Definition failed_ray (E : senv) (earlier : list tried) (row : nat) : Prop :=
  exists k e, nth_error earlier k = Some e /\ tr_kind e = KRay /\ tr_index e = row /\ (so_code (se_solve E k) < 0)%Z.

Definition same_bounds (p q : pst) : Prop := forall i, ps_up p i = ps_up q i.
(** A solve that comes after the solves [earlier], in a PRLP whose row bounds were those of [p0] at the start:
    no limit had been reached; the objective is exactly the intended one; bounds are the original ones, except
    that later solves for a point have the point's row as an equation. *)
Definition entry_ok (E : senv) (p0 : pst) (earlier : list tried) (e : tried) : Prop :=
  let d := se_tp E in let i := tr_index e in let p := tr_st e in
  (tr_kind e <> KBilinear -> se_limit E (length earlier) = false) /\
  match tr_kind e with
  | KAllOnes => objective_is d (fun _ => 1) p /\ same_bounds p p0
  | KBilinear => True
  | KPoint h true => objective_is d (pval (tp_row d i)) p /\ same_bounds p p0 /\ (h = TIGHT_POINTS -> ~ had_tight E so_row earlier i)
  | KPoint h false => ps_up p i = tp_lo d i /\ forall r, r <> i -> ps_up p r = ps_up p0 r
  | KUnit => objective_is d (fun j => if Nat.eqb i j then 1 else 0) p /\ same_bounds p p0 /\ ~ had_tight E so_lb earlier i
  | KRay => objective_is d (pval (tp_row d i)) p /\ same_bounds p p0 /\ ~ had_tight E so_row earlier i
  | KRay2 => objective_is d (pval (tp_row d i)) p /\ same_bounds p p0 /\ ~ failed_ray E earlier i
  end.
Definition trace_ok (E : senv) (p0 : pst) (tr : list tried) : Prop :=
  forall k e, nth_error tr k = Some e -> entry_ok E p0 (firstn k tr) e.

(** The feasible region of the PRLP: rows between their bounds and columns above their lower bounds ([K]:
    anything else, such as column upper bounds). *)
Definition region (d : tpdata) (K : (nat -> Q) -> Prop) (p : pst) (lo : nat -> option Q) (x : nat -> Q) : Prop :=
  K x /\ (forall i, (i < tp_nrows d)%nat -> above (tp_lo d i) (pdot (tp_row d i) x) /\ below (ps_up p i) (pdot (tp_row d i) x)) /\
  (forall j, (j < tp_ncols d)%nat -> above (lo j) (x j)).
(** The solver's optimal value for a single column is that column's value in the solution, and a lower bound on
    the column. *)
Definition honest (E : senv) (K : (nat -> Q) -> Prop) (tr : list tried) : Prop :=
  forall k e, nth_error tr k = Some e -> tr_kind e = KUnit -> so_optimal (se_solve E k) = true ->
    so_obj (se_solve E k) == so_sol (se_solve E k) (tr_index e) /\
    forall x, region (se_tp E) K (tr_st e) (tr_lo e) x -> so_obj (se_solve E k) <= x (tr_index e).

(** First solves of calls for a point. *)
Definition is_head (e : tried) : bool := match tr_kind e with KPoint _ first => first | _ => false end.
Definition heads (tr : list tried) : list nat := map tr_index (filter is_head tr).

(** The least number whose square reaches [n]: the ceiling of its square root. *)
Definition root_up (n r : Z) : Prop := (0 <= r /\ n <= r * r /\ forall s, 0 <= s -> n <= s * s -> r <= s)%Z.
