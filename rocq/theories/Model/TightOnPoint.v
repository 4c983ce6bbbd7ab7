(** PRLP::findCutsTightOnPoint, src/cut/PRLP.cpp:947-1322: the objectives it installs and the row bounds
    it changes.  Solving (tryOneObjective) and the limits are external: an oracle per solve. *)
From Verif Require Export Model.LP Model.SolverHelper.
#[local] Open Scope Q_scope.

(** The part of the PRLP that the function writes: objective and row upper bounds ([None] = infinity). *)
(** The PRLP object (external part), written at PRLP.cpp:1130-1325. *)
Record pst := { ps_obj : nat -> Q; ps_up : nat -> option Q }.
(** OsiSolverInterface::setRowUpper (external). *)
Definition set_up (s : pst) (i : nat) (b : option Q) : pst := {| ps_obj := ps_obj s; ps_up := upd (ps_up s) i b |}.
(** The objective is assigned (record update). *)
Definition with_obj (s : pst) (c : nat -> Q) : pst := {| ps_obj := c; ps_up := ps_up s |}.

(** The PRLP data it reads: sizes, rows, row lower bounds, and the two-norm of a vector (external). *)
Record tpdata := { tp_ncols : nat; tp_nrows : nat; tp_row : nat -> packed; tp_lo : nat -> option Q; tp_norm : packed -> Q }.
(** After one solve: return code of tryOneObjective; proven optimal and the point's row tight (lines
    1007-1008); for a candidate index, whether its numTimesTight counter has changed since the start
    (lines 1231-1251) and whether it is tight now (lines 1270-1286); whether the cut, time or failure
    limit is reached at the next check. *)
Record tans := { ta_code : Z; ta_point_tight : bool; ta_changed : nat -> bool; ta_tight_now : nat -> bool; ta_limit : bool }.

(** PRLP.cpp:957: BAD_RETURN_CODE = -(PRIMAL_INFEASIBLE + 1); CglVPC.hpp:98-119: PRIMAL_INFEASIBLE is 11. *)
Definition BAD_RETURN_CODE : Z := -12.

(** Lines 1151-1164, 1234-1254, 1292-1305: the vector of a candidate index (row, column lower, column upper). *)
Definition vec_of (d : tpdata) (idx : nat) : packed :=
  if Nat.ltb idx (tp_nrows d) then tp_row d idx
  else if Nat.ltb idx (tp_nrows d + tp_ncols d) then [((idx - tp_nrows d)%nat, 1)]
  else [((idx - tp_nrows d - tp_ncols d)%nat, -(1))].
(** PRLP.cpp:1130-1325 with SolverHelper.cpp:181-235: a vector is added to the objective. *)
Definition add_vec (d : tpdata) (v : packed) (mult : Q) (scale : bool) (s : pst) : pst :=
  with_obj s (addToObjective (tp_ncols d) (Some v) false mult (tp_norm d v) None scale (ps_obj s)).
(** PRLP.cpp:1130-1325 with SolverHelper.cpp:240-258: coefficients of some columns are set to zero. *)
Definition reset_at (d : tpdata) (v : packed) (s : pst) : pst :=
  with_obj s (setConstantObjective (tp_ncols d) 0 (Some (map fst v)) (ps_obj s)).
(** PRLP.cpp:1130-1325 with SolverHelper.cpp:240-258: all coefficients are set to zero. *)
Definition reset_all (d : tpdata) (s : pst) : pst := with_obj s (setConstantObjective (tp_ncols d) 0 None (ps_obj s)).

(** Lines 1221-1258, the inner while of mode > 0: [rest] are the candidates after check_ind; result: vec
    ([None] = NULL), what is left, the objective.  [only_unchanged]: mode_ones == 1. *)
Fixpoint advance (d : tpdata) (only_unchanged : bool) (changed : nat -> bool) (rest : list nat) (vec : option packed) (s : pst)
  : option packed * list nat * pst :=
  match rest with
  | [] => (vec, [], s)
  | idx :: r => if only_unchanged && changed idx then advance d only_unchanged changed r None s
                else (Some (vec_of d idx), r, add_vec d (vec_of d idx) 1 false s)
  end.
(** Lines 1188-1261, mode > 0; [fuel] = MAX_NUM_OBJ_PER_POINT - try_ind; [k]: number of solves so far;
    [bad]/[limit]: from the last solve.  Result: return value, state, states at each solve; [None]: NULL
    dereferenced (line 1220). *)
Fixpoint loop_pos (d : tpdata) (ask : nat -> tans) (only_unchanged : bool) (fuel k : nat) (last : tans)
    (vec : option packed) (rest : list nat) (s : pst) (tr : list pst) : option (bool * pst * list pst) :=
  match fuel with
  | O => Some (true, s, tr)
  | S f =>
      if Z.eqb (ta_code last) BAD_RETURN_CODE || ta_limit last then Some (negb (Z.eqb (ta_code last) BAD_RETURN_CODE), s, tr)
      else match rest with
      | [] => Some (true, s, tr)                          (* check_ind >= numToCheck - 1 *)
      | _ =>
          let a := ask k in
          let tr' := tr ++ [s] in
          match f with
          | O => Some (true, s, tr')                      (* try_ind + 1 = MAX_NUM_OBJ_PER_POINT *)
          | _ =>
              match vec with
              | None => None
              | Some v =>
                  let '(vec', rest', s') := advance d only_unchanged (ta_changed a) rest vec (reset_at d v s) in
                  loop_pos d ask only_unchanged f (S k) a vec' rest' s' tr'
              end
          end
      end
  end.

(** Lines 1262-1308, mode 0: one pass over the candidates still in the objective ([live]).  Line 1306:
    the vector is subtracted with SHOULD_SCALE = true. *)
Fixpoint remove_tight (d : tpdata) (tight : nat -> bool) (live : list nat) (s : pst) : list nat * nat * pst :=
  match live with
  | [] => ([], O, s)
  | idx :: r =>
      if tight idx then
        let '(l, n, s') := remove_tight d tight r (add_vec d (vec_of d idx) (-(1)) true s) in (l, S n, s')
      else let '(l, n, s') := remove_tight d tight r s in (idx :: l, n, s')
  end.
(** PRLP.cpp:1225-1308, mode 0: passes until nothing is left or a limit is reached; [fuel] bounds their number. *)
Fixpoint loop_zero (d : tpdata) (ask : nat -> tans) (fuel k : nat) (last : tans) (live : list nat) (s : pst) (tr : list pst)
  : bool * pst * list pst :=
  match fuel with
  | O => (true, s, tr)
  | S f =>
      if Z.eqb (ta_code last) BAD_RETURN_CODE || ta_limit last then (negb (Z.eqb (ta_code last) BAD_RETURN_CODE), s, tr)
      else
        let a := ask k in
        let tr' := tr ++ [s] in
        match f with
        | O => (true, s, tr')
        | _ =>
            let '(live', removed, s') := remove_tight d (ta_tight_now a) live s in
            if Nat.eqb (removed * length live) 0 || Nat.eqb (length live - removed) 0 then (true, s', tr')
            else loop_zero d ask f (S k) a live' s' tr'
        end
  end.

(** The whole function.  [cands]: indexToCheck in sorted order (lines 1050-1140; which rows and columns
    are candidates depends on the basis and the sorting routine and is not modelled: any list). *)
Definition findCutsTightOnPoint (d : tpdata) (ask : nat -> tans) (point : nat) (mode_ones : nat) (cands : list nat)
    (MAX : nat) (s : pst) : option (bool * pst * list pst) :=
  let p := tp_row d point in
  let s1 := add_vec d p 1 false s in
  let a := ask O in
  let s2 := reset_at d p s1 in
  if Z.eqb (ta_code a) BAD_RETURN_CODE || ta_limit a then Some (negb (Z.eqb (ta_code a) BAD_RETURN_CODE), s2, [s1])
  else if negb (ta_point_tight a) || Nat.leb MAX 1 then Some (true, s2, [s1])
  else
    let orig_ub := ps_up s2 point in
    let s3 := set_up s2 point (tp_lo d point) in
    let done s := set_up (reset_all d s) point orig_ub in
    match mode_ones with
    | O =>
        let s4 := fold_left (fun s idx => add_vec d (vec_of d idx) 1 false s) cands s3 in
        match cands with
        | [] => Some (true, done s4, [s1])
        | _ => let '(r, s5, tr) := loop_zero d ask (MAX - 1) 1 a cands s4 [s1] in Some (r, done s5, tr)
        end
    | S m =>
        match cands with
        | [] => Some (true, done s3, [s1])
        | idx :: rest =>
            let s4 := add_vec d (vec_of d idx) 1 false s3 in
            match rest with
            | [] => Some (true, done s4, [s1])            (* check_ind >= numToCheck - 1: the candidate is dropped *)
            | _ => match loop_pos d ask (Nat.eqb m 0) (MAX - 1) 1 a (Some (vec_of d idx)) rest s4 [s1] with
                   | Some (r, s5, tr) => Some (r, done s5, tr)
                   | None => None
                   end
            end
        end
    end.
