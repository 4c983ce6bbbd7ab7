(** PRLP::setup, src/cut/PRLP.cpp:64-332: the point-ray constraints become a linear program.
    [prconstr] (Model.PRCollection) is one entry of PRLPData.  Matrix and bounds of the loaded problem
    are returned; the solve that follows (lines 334-420) is [prlp_status] below. *)
From Verif Require Export Prelude Model.Tolerance Model.CutHelper Model.PRCollection.

(** PRLP.cpp:90-92: the right-hand side times [scale], unless exactly zero. *)
Definition vec_rhs (scale : Q) (k : prconstr) : Q :=
  if Qeq_bool (pr_rhs k) 0 then pr_rhs k else pr_rhs k * scale.

(** Column bounds under construction (colLB, colUB). *)
(** PRLP.cpp:64-150. *)
Record bnds := { b_lb : nat -> Q; b_ub : nat -> Q }.
(** Assignment to an element of an array. *)
Definition set_at (f : nat -> Q) (j : nat) (v : Q) : nat -> Q := fun i => if Nat.eqb i j then v else f i.

(** PRLP.cpp:94-132: a constraint with exactly one element tightens a bound.  [None] is the exit(1)
    of line 121. *)
Definition singleton_bound (rhs coeff : Q) (var : nat) (b : bnds) : option bnds :=
  if isZero rhs EPS7 then
    if lessThanVal coeff 0 EPS7 then
      Some (if Qltb 0 (b_ub b var) then {| b_lb := b_lb b; b_ub := set_at (b_ub b) var 0 |} else b)
    else if greaterThanVal coeff 0 EPS7 then
      Some (if Qltb (b_lb b var) 0 then {| b_lb := set_at (b_lb b) var 0; b_ub := b_ub b |} else b)
    else Some b
  else if isVal coeff 0 EPS7 then
    if lessThanVal rhs 0 EPS7 then None else Some b
  else
    let nb := rhs / coeff in
    if lessThanVal coeff 0 EPS7 then
      Some (if Qltb nb (b_ub b var) then {| b_lb := b_lb b; b_ub := set_at (b_ub b) var nb |} else b)
    else
      Some (if Qltb (b_lb b var) nb then {| b_lb := set_at (b_lb b) var nb; b_ub := b_ub b |} else b).

(** PRLP.cpp:88-149, bounds part of the first pass. *)
Fixpoint first_pass (scale : Q) (ks : list prconstr) (b : bnds) : option bnds :=
  match ks with
  | [] => Some b
  | k :: r =>
      match pr_vec k with
      | [(var, coeff)] =>
          match singleton_bound (vec_rhs scale k) coeff var b with
          | None => None
          | Some b' => first_pass scale r b'
          end
      | _ => first_pass scale r b
      end
  end.

(** PRLP.cpp:134-148: which constraints are kept as point rows / as ray rows. *)
Definition is_point_row (scale : Q) (k : prconstr) : bool := negb (isZero (vec_rhs scale k) EPS7).
(** PRLP.cpp:141-148. *)
Definition is_ray_row (scale : Q) (k : prconstr) : bool :=
  Nat.ltb 1 (length (pr_vec k)) && isZero (vec_rhs scale k) EPS7.

(** PRLP.cpp:193-196: both right-hand sides positive or both negative. *)
Definition same_sign (b1 b2 : Q) : bool :=
  (greaterThanVal b1 0 EPS7 && greaterThanVal b2 0 EPS7) || (lessThanVal b1 0 EPS7 && lessThanVal b2 0 EPS7).

(** PRLP.cpp:184-212 (points) and 226-252 (rays): compare row [k1] with the rows before it, nearest
    first.  [prev] lists those rows with their isDuplicate flag; the result is the updated flags and the
    flag of [k1].  [points] selects the sign test of lines 193-197. *)
Fixpoint dup_inner (points : bool) (DIFFEPS : Q) (k1 : prconstr) (prev : list (prconstr * bool))
  : list (prconstr * bool) * bool :=
  match prev with
  | [] => ([], false)
  | (k2, true) :: r => let (r', f) := dup_inner points DIFFEPS k1 r in ((k2, true) :: r', f)
  | (k2, false) :: r =>
      if negb (isVal (pr_obj k1) (pr_obj k2) EPS7) then (prev, false)
      else if points && negb (same_sign (pr_rhs k1) (pr_rhs k2)) then
        let (r', f) := dup_inner points DIFFEPS k1 r in ((k2, false) :: r', f)
      else
        let h := isRowDifferent (pr_vec k1) (pr_rhs k1) (pr_vec k2) (pr_rhs k2) DIFFEPS in
        if Z.eqb h 2 then let (r', f) := dup_inner points DIFFEPS k1 r in ((k2, false) :: r', f)
        else if Z.eqb h (-1) then ((k2, true) :: r, true)
        else (prev, true)
  end.

(** PRLP.cpp:174-213 / 218-253: the loop over p1; [prev] holds the rows already passed, latest first.
    For points, lines 178-180 skip the comparison when the row just before has another depth. *)
Fixpoint dup_outer (points : bool) (DIFFEPS : Q) (prev : list (prconstr * bool)) (rest : list prconstr)
  : list (prconstr * bool) :=
  match rest with
  | [] => prev
  | k1 :: r =>
      let skip := match prev with
                  | [] => true
                  | (k0, _) :: _ => points && negb (isVal (pr_obj k0) (pr_obj k1) EPS7)
                  end in
      let (prev', f) := if skip then (prev, false) else dup_inner points DIFFEPS k1 prev in
      dup_outer points DIFFEPS ((k1, f) :: prev') r
  end.

(** Rows not flagged, in sorted order (PRLP.cpp:263-292). *)
Definition unflagged (l : list (prconstr * bool)) : list prconstr :=
  map fst (filter (fun e => negb (snd e)) (rev l)).

(** PRLP.cpp:295: CoinPackedMatrix::cleanMatrix() (external) drops elements of magnitude at most 1e-20. *)
Definition tinyElement : Q := 1 # 100000000000000000000.
(** PRLP.cpp:295 with CoinPackedMatrix::cleanMatrix (external). *)
Definition clean_row (v : packed) : packed := filter (fun e => Qltb tinyElement (Qabs (snd e))) v.

(** PRLP.cpp:301-314: an empty column whose bounds are each infinite or zero is deleted. *)
Definition column_empty (rows : list (packed * Q)) (c : nat) : bool :=
  forallb (fun r => forallb (fun e => negb (Nat.eqb (fst e) c)) (fst r)) rows.
(** PRLP.cpp:303-309. *)
Definition ignore_bounds (b : bnds) (c : nat) : bool :=
  (isNegInfinity_default (b_lb b c) || isZero (b_lb b c) EPS7) &&
  (isInfinity_default (b_ub b c) || isZero (b_ub b c) EPS7).
(** PRLP.cpp:301-320: the columns that are not deleted. *)
Definition kept_columns (rows : list (packed * Q)) (b : bnds) (num_cols : nat) : list nat :=
  filter (fun c => negb (column_empty rows c && ignore_bounds b c)) (seq 0 num_cols).

(** CoinPackedMatrix::deleteCols renumbers the remaining columns (PRLP.cpp:320). *)
Fixpoint position (c : nat) (l : list nat) : option nat :=
  match l with
  | [] => None
  | x :: r => if Nat.eqb x c then Some O else option_map S (position c r)
  end.
(** CoinPackedMatrix::deleteCols (external), PRLP.cpp:320. *)
Definition renumber (cols : list nat) (v : packed) : packed :=
  flat_map (fun e => match position (fst e) cols with Some p => [(p, snd e)] | None => [] end) v.

(** The loaded problem: rows  v.y >= rhs  over columns 0..length l_cols - 1, column bounds,
    nonZeroColIndex. *)
(** PRLP.cpp:295-332. *)
Record loaded := { l_rows : list (packed * Q); l_lb : nat -> Q; l_ub : nat -> Q; l_cols : list nat }.

(** PRLP.cpp:64-336.  [ordP], [ordR]: the point rows and the ray rows in the order std::sort put them
    (an argument because std::sort leaves the order of equal keys open).
    Simplification: numPoints / numRays / ortho are not part of the result. *)
Definition prlp_setup (scale INF DIFFEPS : Q) (num_cols : nat) (ks ordP ordR : list prconstr) : option loaded :=
  match first_pass scale ks {| b_lb := fun _ => - INF; b_ub := fun _ => INF |} with
  | None => None
  | Some b =>
      let pts := unflagged (dup_outer true DIFFEPS [] ordP) in
      let rays := unflagged (dup_outer false DIFFEPS [] ordR) in
      let rows := map (fun k => (clean_row (pr_vec k), pr_rhs k * scale)) pts
                  ++ map (fun k => (clean_row (pr_vec k), pr_rhs k)) rays in
      let cols := kept_columns rows b num_cols in
      Some {| l_rows := map (fun r => (renumber cols (fst r), snd r)) rows;
              l_lb := fun p => b_lb b (nth p cols O);
              l_ub := fun p => b_ub b (nth p cols O);
              l_cols := cols |}
  end.

(** What the solver reports after the initial solve with zero objective (PRLP.cpp:362-372), in the order
    it is asked. *)
Record prlpanswer := { pa_optimal : bool; pa_primalinf : bool; pa_abandoned : bool; pa_timeok : bool;
                       pa_iterlimit : bool; pa_dualinf : bool }.
(** Exit reason and the failure counter incremented, PRLP.cpp:377-418. *)
Inductive prlpexit := PrlpSuccess | PrlpInfeasible | PrlpTimeLimit | PrlpNumerical.
(** The failure counters incremented at PRLP.cpp:377-418. *)
Inductive prlpfail := FailPrimalInfeasibleNoObj | FailNumericalNoObj | FailUnknown.
(** PRLP.cpp:377-418. *)
Definition prlp_status (a : prlpanswer) : prlpexit * option prlpfail :=
  if pa_optimal a then (PrlpSuccess, None)
  else if pa_primalinf a && negb (pa_abandoned a) then (PrlpInfeasible, Some FailPrimalInfeasibleNoObj)
  else if negb (pa_timeok a) then (PrlpTimeLimit, Some FailNumericalNoObj)
  else if pa_iterlimit a then (PrlpNumerical, Some FailNumericalNoObj)
  else if pa_dualinf a && negb (pa_abandoned a) then (PrlpNumerical, Some FailNumericalNoObj)
  else (PrlpNumerical, Some FailUnknown).
