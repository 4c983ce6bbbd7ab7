(** What a preprocessing run promises: the value of a solution, and what each column of its row means, by name. *)
From Coq Require Import String.
From Verif Require Export Model.Preprocess Spec.LPSpec Spec.LogSpec.
#[local] Open Scope Q_scope.
#[local] Open Scope string_scope.

(** The objective value of a point, as getObjValue counts it. *)
Definition value (i : inst) (x : nat -> Q) : Q := Qsumf (fun j => obj (i_lp i) j * x j) (seq 0 (ncols (i_lp i))) - i_off i.

(** Statistics of a problem, by name. *)
Definition statistics (p : prob) : list (string * field) :=
  let eqs := let '(e, _, _) := row_stats (p_rows p) in e in let bds := let '(_, x, _) := row_stats (p_rows p) in x in let ass := let '(_, _, x) := row_stats (p_rows p) in x in
  let k := col_stats (p_cols p) in
  [("ROWS", strI (Z.of_nat (List.length (p_rows p)))); ("COLS", strI (Z.of_nat (List.length (p_cols p)))); ("EQ ROWS", strI eqs); ("BOUND ROWS", strI bds); ("ASSIGN ROWS", strI ass);
   ("FIXED COLS", strI (k_fixed k)); ("GEN INT", strI (k_gen k)); ("BINARY", strI (k_bin k)); ("CONTINUOUS", strI (k_cont k));
   ("NUM FRAC", strI (k_frac k)); ("MIN FRACTIONALITY", strQ (k_min k)); ("MAX FRACTIONALITY", strQ (k_max k))].

(** [means … name f]: the column called [name] of the row of a preprocessing run may show [f]; [p0], [p1]: the original
    and the cleaned problem, [v0]: the value of the original relaxation. *)
Inductive means (e : ending) (strategy : Z) (v0 : Q) (p0 p1 : prob) (o : cleanout) : string -> field -> Prop :=
| M_one n f : In (n, f) [("INSTANCE", TextF (en_inst e)); ("STRATEGY", IntF strategy); ("ORIG LP OBJ", strQ v0); ("CLEANED LP OBJ", strQ (co_lp o));
                         ("CLEANED BOUNDS CHANGED", IntF (co_bounds o)); ("CLEANED NUM SB FIXED", IntF (co_fixed o))] -> means e strategy v0 p0 p1 o n f
| M_stat who p n f : In (who, p) [("ORIG ", p0); ("CLEANED ", p1)] -> In (n, f) (statistics p) -> means e strategy v0 p0 p1 o (who ++ n) f
| M_density who p f : In (who, p) [("ORIG ", p0); ("CLEANED ", p1)] -> density_field p = Some f -> means e strategy v0 p0 p1 o (who ++ "A-DENSITY") f
| M_bb who s stat st n m : In (who, s) [("ORIG ", co_orig o); ("CLEANED ", co_cleaned o)] -> In (stat, st) statistic_of -> In (n, m) member_of ->
    means e strategy v0 p0 p1 o (who ++ stat ++ " GUR " ++ n) (m (st s))
| M_all who s n m : In (who, s) [("ORIG ", co_orig o); ("CLEANED ", co_cleaned o)] -> In (n, m) member_of ->
    means e strategy v0 p0 p1 o (who ++ "ALL GUR " ++ n) (RunsF m (sm_vec s))
| M_version n t : In (n, t) (combine ["vpc_version"; "cbc_version"; "clp_version"; "gurobi_version"; "cplex_version"] (en_versions e)) -> means e strategy v0 p0 p1 o n (TextF t)
| M_end n f : In (n, f) [("ExitReason", TextF (en_exit e)); ("end_time_string", TextF (en_end e)); ("time elapsed", IntF (en_elapsed e)); ("instname", TextF (en_inst e))] ->
    means e strategy v0 p0 p1 o n f.

(** How far two problems with the same numbers of rows and columns look alike: right-hand sides and column bounds. *)
Definition close (a b : Q) : Prop := Qabs (a - b) < EPS7.
Definition alike (P P' : lp) : Prop :=
  (forall i, (i < nrows P)%nat -> close (rowRHS (rows P i)) (rowRHS (rows P' i))) /\
  (forall j, (j < ncols P)%nat -> close (loVal (clo P j)) (loVal (clo P' j)) /\ close (upVal (cup P j)) (upVal (cup P' j))).
