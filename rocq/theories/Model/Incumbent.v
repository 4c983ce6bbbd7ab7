(** Integer solutions met during the partial tree search: the node and beforeSolution2 events of
    VPCEventHandler::event, src/branch/VPCEventHandler.cpp:566-848 and 862-966.  Cbc is external: what it
    reports in an event are the fields of the records below. *)
From Verif Require Export Prelude Model.Tolerance Model.LP.
#[local] Open Scope Q_scope.

(** PruneNodeOption, VPCEventHandler.hpp:75-77. *)
Inductive prune := KeepNode | ByInfeasibility | ByBound | ByIntegrality.

(** foundSolution_, pruneNode_, savedSolution_ with obj_ (None: empty, obj_ at its largest value),
    VPCEventHandler.hpp:183-205, 1080-1105. *)
Record inc := { i_found : bool; i_prune : prune; i_saved : option ((nat -> Q) * Q) }.
(** VPCEventHandler.cpp:1080-1105: a new handler. *)
Definition inc_new : inc := {| i_found := false; i_prune := KeepNode; i_saved := None |}.

(** What Cbc shows in a beforeSolution2 event: the current node (objective, whether it has a branching object),
    the solution announced with its objective, cutoff, cutoff increment, feasibility, and the solution found by
    the choose method, if there is such a method and it has one. *)
(** VPCEventHandler.cpp:939-966. *)
Record found := { v_child : option (Q * bool); v_best : nat -> Q; v_obj : Q; v_cut : Q; v_inc : Q;
                  v_mip : bool; v_pfeas : Z; v_good : option ((nat -> Q) * Q) }.

(** beforeSolution2, VPCEventHandler.cpp:862-966.  [None]: exit because there is no current node. *)
Definition ev_solution (st : inc) (v : found) : option inc :=
  match v_child v with
  | None => None
  | Some (cobj, cbranch) =>
      let newCutoff := v_obj v - v_inc v in
      if negb (v_mip v) || (v_pfeas v <? 0)%Z
      then Some {| i_found := true; i_prune := ByInfeasibility; i_saved := i_saved st |}
      else if Qle_bool (v_cut v) cobj
      then Some {| i_found := true; i_prune := ByBound; i_saved := i_saved st |}
      else if Qltb (v_obj v) (v_cut v) && Qle_bool newCutoff cobj
      then Some {| i_found := true; i_prune := ByIntegrality; i_saved := Some (v_best v, v_obj v) |}
      else match (if cbranch then None else v_good v) with
           | Some (x, o) =>
               Some {| i_found := true; i_prune := ByIntegrality;
                       i_saved := if Qltb o (v_cut v) then Some (x, o) else i_saved st |}
           | None => Some {| i_found := true; i_prune := i_prune st; i_saved := i_saved st |}
           end
  end.

(** The treeStatus event resets the two flags, VPCEventHandler.cpp:472-473. *)
Definition ev_reset (st : inc) : inc := {| i_found := false; i_prune := KeepNode; i_saved := i_saved st |}.
(** The events that touch the saved solution: one with a solution (VPCEventHandler.cpp:939-966), and treeStatus (472-473). *)
Inductive ievent := IFound (v : found) | IReset.
(** One of these events. *)
Definition iev (st : inc) (e : ievent) : option inc :=
  match e with IFound v => ev_solution st v | IReset => Some (ev_reset st) end.
(** A sequence of these events; [None]: exit(1). *)
Fixpoint irun (st : inc) (es : list ievent) : option inc :=
  match es with
  | [] => Some st
  | e :: r => match iev st e with Some st' => irun st' r | None => None end
  end.

(** Rounding of one column of the solution, VPCEventHandler.cpp:705-733.  [lo], [up]: bounds of the original
    solver.  [None]: the column is in error. *)
Definition fix_col (lo up : option Q) (isint : bool) (x : Q) : option Q :=
  let lower := match lo with
               | None => Some x
               | Some l => let v := l - x in
                           if greaterThanVal v 0 EPS7 then None
                           else if greaterThanVal v 0 0 then Some (x + v) else Some x
               end in
  match lower with
  | None => None
  | Some x1 =>
      let upper := match up with
                   | None => Some x1
                   | Some u => let v := x1 - u in
                               if greaterThanVal v 0 EPS7 then None
                               else if greaterThanVal v 0 0 then Some (x1 - v) else Some x1
                   end in
      match upper with
      | None => None
      | Some x2 =>
          if isint
          then let f := inject_Z (Qfloor x2) in
               let v := if Qltb (x2 - f) (1 # 2) then x2 - f else x2 - (f + 1) in
               if negb (isZero v EPS7) then None
               else if negb (isZero v 0) then Some (x2 - v) else Some x2
          else Some x2
      end
  end.

(** The loop over the columns, VPCEventHandler.cpp:704-734: the index of the first column in error (-1 if there
    is none) and the solution, corrected up to there. *)
Fixpoint fix_cols (lo up : nat -> option Q) (ints : nat -> bool) (k n : nat) (x : nat -> Q) : Z * (nat -> Q) :=
  match n with
  | O => ((-1)%Z, x)
  | S n' => match fix_col (lo k) (up k) (ints k) (x k) with
            | None => (Z.of_nat k, x)
            | Some y => fix_cols lo up ints (S k) n' (fun j => if Nat.eqb j k then y else x j)
            end
  end.

(** A row as the solver shows it: sense, right-hand side, coefficients, reported activity. *)
(** OsiSolverInterface (external), read at VPCEventHandler.cpp:600-666. *)
Record srow := { w_sense : Z; w_rhs : Q; w_coef : nat -> Q; w_act : Q }.
(** The characters of OsiSolverInterface::getRowSense: 'G', 'L', 'E'. *)
Definition SG := 71%Z. Definition SL := 76%Z. Definition SE := 69%Z.

(** Value of a row or of the objective at a point. *)
Definition dot (n : nat) (c x : nat -> Q) : Q := Qsumf (fun j => c j * x j) (seq 0 n).

(** The loop over the rows, VPCEventHandler.cpp:738-787; it goes on only while [error] is 0.  For a ranged row
    the lower bound is looked up among the columns (line 778).  [None]: exit because activities differ. *)
Fixpoint check_rows (n : nat) (collo : nat -> Q) (eps : Q) (x : nat -> Q) (k : nat) (rows : list srow) (error : Z) : option Z :=
  match rows with
  | [] => Some error
  | r :: rest =>
      if negb (error =? 0)%Z then Some error
      else
        let act := dot n (w_coef r) x in
        if negb (isVal act (w_act r) EPS7) then None
        else
          let bad :=
            if (w_sense r =? SG)%Z then lessThanVal act (w_rhs r) eps
            else if (w_sense r =? SL)%Z then greaterThanVal act (w_rhs r) eps
            else if (w_sense r =? SE)%Z then negb (isVal act (w_rhs r) eps)
            else greaterThanVal act (w_rhs r) eps || lessThanVal act (collo k) eps in
          if bad then Some (Z.of_nat (k + n)) else check_rows n collo eps x (S k) rest error
  end.

(** What the solver and Cbc show in a node event.  [q_child]: the new node, if there is one: number of
    unsatisfied objects, and whether it is active, has node information, a parent, a branching object. *)
(** CbcNode (external), read at VPCEventHandler.cpp:567-600. *)
Record cflags := { f_unsat : nat; f_active : bool; f_info : bool; f_parent : bool; f_branch : bool }.
(** VPCEventHandler.cpp:567-700: what is read in a node event. *)
Record nodeq := { q_n : nat; q_feas : bool; q_child : option cflags; q_sol : nat -> Q;
                  q_lo : nat -> option Q; q_up : nat -> option Q; q_obj : Q; q_cut : Q; q_inc : Q; q_mobj : Q;
                  q_olo : nat -> option Q; q_oup : nat -> option Q; q_int : nat -> bool; q_rows : list srow;
                  q_collo : nat -> Q; q_cost : nat -> Q; q_off : Q; q_eps : Q }.

(** VPCEventHandler.cpp:588-598. *)
Definition is_keep (p : prune) : bool := match p with KeepNode => true | _ => false end.
(** The comparison pruneNode_ == PRUNE_BY_INTEGRALITY, VPCEventHandler.cpp:588-598. *)
Definition is_integ (p : prune) : bool := match p with ByIntegrality => true | _ => false end.
(** VPCEventHandler.cpp:588-592. *)
Definition node_solution (st : inc) (q : nodeq) : bool :=
  q_feas q && is_keep (i_prune st) &&
  match q_child q with Some c => Nat.eqb (f_unsat c) 0 | None => false end.
(** VPCEventHandler.cpp:593-598. *)
Definition will_create (st : inc) (q : nodeq) : bool :=
  q_feas q && negb (negb (is_keep (i_prune st)) || node_solution st q) &&
  match q_child q with Some c => f_active c && f_info c && f_parent c && f_branch c | None => false end.

(** The point left by an infeasible problem is looked at, VPCEventHandler.cpp:667-690. *)
Definition outside (lo up : option Q) (x : Q) : bool :=
  match lo with Some l => lessThanVal x l EPS7 | None => false end ||
  match up with Some u => greaterThanVal x u EPS7 | None => false end.
(** VPCEventHandler.cpp:667-690: distance to the nearest integer. *)
Definition frac_dist (x : Q) : Q :=
  let f := inject_Z (Qfloor x) in if Qltb (x - f) (1 # 2) then x - f else f + 1 - x.
(** VPCEventHandler.cpp:667-690: bounds and integrality of the point left. *)
Definition leftover_ok (q : nodeq) : bool :=
  forallb (fun j => negb (outside (q_lo q j) (q_up q j) (q_sol q j)) &&
                    (negb (q_int q j) || isZero (frac_dist (q_sol q j)) (q_eps q))) (seq 0 (q_n q)).

(** What the node event makes of the new node: it is recorded as created, or as pruned with these arguments of
    setPrunedNodeStatistics (prune_by_integrality, objective, solution_is_found, reason). *)
(** VPCEventHandler.cpp:567-700. *)
Inductive verdict := VCreated | VPruned (integ : bool) (objv : Q) (sol : bool) (why : prune).

(** VPCEventHandler.cpp:600-845; [None]: exit, or an empty vector of the saved solution is read (lines 696-699). *)
Definition judge (st : inc) (q : nodeq) : option verdict :=
  if will_create st q then Some VCreated
  else
    let sol0 := node_solution st q in
    if q_feas q && negb sol0 && is_keep (i_prune st) &&
       match q_child q with Some c => f_active c && f_branch c | None => false end
    then None
    else
      let sol := if negb (is_integ (i_prune st)) && negb sol0 && negb (q_feas q) then leftover_ok q else sol0 in
      if is_integ (i_prune st) || (sol && negb (greaterThanVal (q_obj q) (q_cut q + q_inc q) EPS7))
      then
        match (if is_integ (i_prune st) then option_map fst (i_saved st) else Some (q_sol q)) with
        | None => None
        | Some x =>
            let (error, y) := fix_cols (q_olo q) (q_oup q) (q_int q) 0 (q_n q) x in
            match check_rows (q_n q) (q_collo q) (q_eps q) y 0 (q_rows q) error with
            | None => None
            | Some e =>
                if (0 <=? e)%Z then None
                else
                  let objv := dot (q_n q) (q_cost q) y - q_off q in
                  if is_integ (i_prune st) && negb (isVal objv (q_mobj q) EPS7) then None
                  else Some (VPruned (sol || is_integ (i_prune st)) objv (i_found st) (i_prune st))
            end
        end
      else Some (VPruned (sol || is_integ (i_prune st)) (q_obj q) (i_found st) (i_prune st)).
