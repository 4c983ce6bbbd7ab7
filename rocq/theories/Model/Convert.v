(** A CPLEX model as arrays for Osi: ConvertCPX2Data, MemSetProbData (src/utility/OsiProblemData.cpp:10-187), and what
    loadProblem makes of the arrays.  CPLEX is external: what its query functions answer are the fields of [cpxmodel].
    Left out: failures of malloc, messages. *)
From Verif Require Export Prelude Model.Tolerance Model.LP Model.SolverHelper.
#[local] Open Scope Q_scope.

(** Sizes, sense (1: minimise, -1: maximise), constant of the objective, objective, bounds, types ([None]: the query fails, as for
    a model without integer columns; the array keeps whatever malloc gave), right-hand sides, senses, nonzeros by column as (row,
    value); [cm_second]: return value of the second CPXgetcols. *)
(** The CPLEX object (external), queried at OsiProblemData.cpp:10-100. *)
Record cpxmodel := { cm_n : nat; cm_m : nat; cm_sen : Z; cm_off : Q; cm_obj : nat -> Q; cm_lb : nat -> Q; cm_ub : nat -> Q;
  cm_type : option (nat -> ascii); cm_rhs : nat -> Q; cm_sense : nat -> ascii; cm_col : nat -> packed; cm_second : Z }.
(** CPXgetcols for all columns: number of nonzeros, begins, rows, values. *)
(** OsiProblemData.cpp:50-75. *)
Definition cpx_entries (M : cpxmodel) : packed := flat_map (cm_col M) (seq 0 (cm_n M)).
(** OsiProblemData.cpp:50-75: nzcnt after CPXgetcols (external). *)
Definition cpx_nz (M : cpxmodel) : nat := length (cpx_entries M).
(** OsiProblemData.cpp:50-75: cmatbeg after CPXgetcols (external). *)
Definition cpx_beg (M : cpxmodel) (j : nat) : nat := length (flat_map (cm_col M) (seq 0 j)).
(** OsiProblemData.cpp:50-75: cmatind after CPXgetcols (external). *)
Definition cpx_ind (M : cpxmodel) (k : nat) : nat := nth k (map fst (cpx_entries M)) 0%nat.
(** OsiProblemData.cpp:50-75: cmatval after CPXgetcols (external). *)
Definition cpx_val (M : cpxmodel) (k : nat) : Q := nth k (map snd (cpx_entries M)) 0.
(** Line 59: without space for the nonzeros the first call reports CPXERR_NEGATIVE_SURPLUS if there are any. *)
Definition NEGATIVE_SURPLUS : Z := 1207.
(** The return value of the first CPXgetcols (external). *)
Definition first_call (M : cpxmodel) : Z := if Nat.ltb 0 (cpx_nz M) then NEGATIVE_SURPLUS else 0%Z.

(** OsiProblemData; an entry that is never written is [None]. *)
Record pdata := { d_n : nat; d_m : nat; d_sen : Z; d_off : Q; d_start : list nat; d_index : list nat; d_value : list Q;
  d_collb : list Q; d_colub : list Q; d_obj : list Q; d_rowlb : list (option Q); d_rowub : list (option Q); d_type : list (option ascii) }.

(** Lines 79-101: the columns; the arrays grow at their end, currOSIidx being the length of index. *)
Definition put_col (M : cpxmodel) (acc : list nat * list nat * list Q) (j : nat) : list nat * list nat * list Q :=
  let '(start, index, value) := acc in
  let b := cpx_beg M j in
  let e := if Nat.ltb (S j) (cm_n M) then cpx_beg M (S j) else cpx_nz M in
  (start ++ [length index], index ++ map (cpx_ind M) (seq b (e - b)), value ++ map (cpx_val M) (seq b (e - b))).
(** Lines 110-134: bounds of a row and whether its sense is known. *)
Definition sG : ascii := "G"%char.
(** The character 'L' (<=), OsiProblemData.cpp:110-134. *)
Definition sL : ascii := "L"%char.
(** The character 'E' (=), OsiProblemData.cpp:110-134. *)
Definition sE : ascii := "E"%char.
(** OsiProblemData.cpp:110-134. *)
Definition row_bounds (s : ascii) (r : Q) : option Q * option Q * bool :=
  if Ascii.eqb s sG then (Some r, Some DBL_MAX, true)
  else if Ascii.eqb s sL then (Some (- DBL_MAX), Some r, true)
  else if Ascii.eqb s sE then (Some r, Some r, true)
  else (None, None, false).

(** The return value and the data; [None]: the data are not touched. *)
(** OsiProblemData.cpp:10-158. *)
Definition ConvertCPX2Data (M : cpxmodel) : Z * option pdata :=
  let rval := first_call M in
  if (rval =? NEGATIVE_SURPLUS)%Z then
    if negb (cm_second M =? 0)%Z then (cm_second M, None)
    else
      let '(start, index, value) := fold_left (put_col M) (seq 0 (cm_n M)) ([], [], []) in
      let cols := seq 0 (cm_n M) in
      let rws := if Nat.eqb (length index) (cpx_nz M) then map (fun i => row_bounds (cm_sense M i) (cm_rhs M i)) (seq 0 (cm_m M))
                 else map (fun _ => (None, None, false)) (seq 0 (cm_m M)) in
      ((if Nat.eqb (length index) (cpx_nz M) && forallb snd rws then 0 else 1)%Z,
       Some {| d_n := cm_n M; d_m := cm_m M; d_sen := cm_sen M; d_off := cm_off M; d_start := start ++ [length index]; d_index := index; d_value := value;
               d_collb := map (cm_lb M) cols; d_colub := map (cm_ub M) cols; d_obj := map (cm_obj M) cols;
               d_rowlb := map (fun x => fst (fst x)) rws; d_rowub := map (fun x => snd (fst x)) rws;
               d_type := map (fun j => match cm_type M with Some t => Some (t j) | None => None end) cols |})
  else (rval, None).

(** What loadProblem(numcols, numrows, start, index, value, ...) takes from the arrays (external): the entries of column [j] are those
    from start[j] to start[j+1]; bounds of absolute value [big] or more are infinite.  [None]: something was never
    written. *)
Definition all_some {A} (l : list (option A)) : option (list A) :=
  fold_right (fun o r => match o, r with Some a, Some t => Some (a :: t) | _, _ => None end) (Some []) l.
(** The entries loadProblem takes for a column: positions start[j] to start[j+1] - 1 (external). *)
Definition data_col (d : pdata) (j : nat) : packed :=
  let b := nth j (d_start d) 0%nat in let e := nth (S j) (d_start d) 0%nat in
  combine (firstn (e - b) (skipn b (d_index d))) (firstn (e - b) (skipn b (d_value d))).
(** loadProblem (external): a bound at or below -[big] is infinite. *)
Definition lower_bound (big q : Q) : option Q := if Qle_bool q (- big) then None else Some q.
(** loadProblem (external): a bound at or above [big] is infinite. *)
Definition upper_bound (big q : Q) : option Q := if Qle_bool big q then None else Some q.
(** The same matrix read by rows. *)
Definition data_row (d : pdata) (i : nat) : packed :=
  flat_map (fun j => map (fun e => (j, snd e)) (filter (fun e => Nat.eqb (fst e) i) (data_col d j))) (seq 0 (d_n d)).
(** loadProblem (external) on all arrays. *)
Definition data_arrays (big : Q) (d : pdata) : option probarrays :=
  match all_some (d_rowlb d), all_some (d_rowub d), all_some (d_type d) with
  | Some rl, Some ru, Some ty =>
      Some {| pa_lp := {| ncols := d_n d; nrows := d_m d; clo := fun j => lower_bound big (nth j (d_collb d) 0); cup := fun j => upper_bound big (nth j (d_colub d) 0);
                          rows := fun i => {| rcoef := data_row d i; rlo := lower_bound big (nth i rl 0); rup := upper_bound big (nth i ru 0) |};
                          obj := fun j => nth j (d_obj d) 0 |};
              pa_sense := inject_Z (d_sen d); pa_off := d_off d; pa_type := fun j => nth j ty "C"%char |}
  | _, _, _ => None
  end.
(** VPCSolverInterface::load of the result into a new object. *)
(** VPCSolverInterface.cpp:171-199. *)
Definition load_cplex (big : Q) (M : cpxmodel) : option osi :=
  match ConvertCPX2Data M with
  | (_, Some d) => option_map (load_arrays 0) (data_arrays big d)
  | (_, None) => None
  end.
