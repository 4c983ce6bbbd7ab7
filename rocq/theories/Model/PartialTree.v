(** Preparing a partial branch-and-bound disjunction: src/disjunction/PartialBBDisjunction.cpp:97-463
    (prepareDisjunction, setCbcParametersForPartialBB, generatePartialBBTree), and the set of such disjunctions
    requested in mode DISJ_SET_PBB, src/cut/CglVPC.cpp:315-341.  Cbc is external: what the search does is a
    history of events (Model/EventHandler.v). *)
From Coq Require Import String.
From Verif Require Export Prelude Model.Tolerance Model.LP Model.Disjunction Model.EventHandler.
From Verif Require Import Model.TextUtil Model.Parameters Model.Generator Model.Generate.
#[local] Open Scope list_scope.
#[local] Open Scope Z_scope.

(** Branching decisions, lines 355-364, and node comparisons, lines 369-380. *)
Inductive decision := DefaultDecision | DynamicDecision | StrongDecision.
(** PartialBBDisjunction.cpp:369-380: the node comparisons. *)
Inductive comparison := DefaultCompare | BFSCompare | DepthCompare | EstimateCompare | ObjectiveCompare.

(** What Cbc and its solver have been told when the search starts.  [None] = not told, Cbc's own default stays.
    [s_choose]: the OsiChooseStrongCustom object: method, number of strong candidates, number before trusted.
    [s_seconds]: setMaximumSeconds of Cbc and of Clp.  [s_handler]: limits of the event handler — leaves,
    seconds, keep pruned nodes.  Left out: log levels and print frequencies. *)
Record cbcset := { s_decision : option decision; s_choose : option (Z * option Z * option Z); s_compare : comparison;
  s_strong : option Z; s_trust : option Z; s_hot : Z; s_seconds : dbl; s_lp_seconds : dbl; s_lp_presolve : bool;
  s_type_presolve : Z; s_passes_root : Z; s_passes : Z; s_when_cuts : Z; s_special : Z; s_more_special : Z;
  s_handler : Z * dbl * bool }.

(** The largest int (32 bits). *)
Definition INT_MAX : Z := 2147483647.
(** Lines 177-183; std::sqrt and std::ceil of an int are exact enough to give the integer square root rounded
    up ([n]: number of columns). *)
Definition num_strong (v : Z) (n : nat) : Z :=
  let v1 := if v =? -1 then Z.of_nat n else v in
  if v1 =? -2 then Z.sqrt_up (Z.of_nat n) else v1.
(** Lines 390-397, 401-405: negative numbers are not passed on. *)
Definition told (v : Z) : option Z := if 0 <=? v then Some v else None.
(** PartialBBDisjunction.cpp:355-364. *)
Definition the_decision (digit : Z) : option decision :=
  if digit =? 1 then Some DynamicDecision else if digit =? 2 then Some StrongDecision
  else if digit =? 3 then None else Some DefaultDecision.
(** PartialBBDisjunction.cpp:369-380. *)
Definition the_comparison (digit : Z) : comparison :=
  if digit =? 1 then BFSCompare else if digit =? 2 then DepthCompare else if digit =? 3 then EstimateCompare
  else if digit =? 4 then ObjectiveCompare else DefaultCompare.

(** Lines 150-165 and 321-428: settings made one after the other; [more]: moreSpecialOptions() of the given
    solver.  Line 153 sets the hot-start limit to INT_MAX, line 351 to 100.  Lines 409-414 are never reached:
    setChooseMethod has just been called. *)
Definition lp_setup (more : Z) (s : cbcset) : cbcset :=
  {| s_decision := s_decision s; s_choose := s_choose s; s_compare := s_compare s; s_strong := s_strong s; s_trust := s_trust s;
     s_hot := INT_MAX; s_seconds := s_seconds s; s_lp_seconds := dbl_max; s_lp_presolve := false; s_type_presolve := s_type_presolve s;
     s_passes_root := s_passes_root s; s_passes := s_passes s; s_when_cuts := s_when_cuts s; s_special := 16; s_more_special := more + 256;
     s_handler := s_handler s |}.
(** PartialBBDisjunction.cpp:321-428. *)
Definition setCbcParametersForPartialBB (compare branch choose strong trust : Z) (seconds : dbl) (handler : Z * dbl * bool) (s : cbcset) : cbcset :=
  let dec := the_decision branch in
  {| s_decision := match dec with Some d => Some d | None => s_decision s end;
     s_choose := match dec with Some _ => Some (choose, told strong, told trust) | None => s_choose s end;
     s_compare := the_comparison compare;
     s_strong := match told strong with Some v => Some v | None => s_strong s end;
     s_trust := match told trust with Some v => Some v | None => s_trust s end;
     s_hot := 100; s_seconds := seconds; s_lp_seconds := s_lp_seconds s; s_lp_presolve := s_lp_presolve s; s_type_presolve := 0;
     s_passes_root := 0; s_passes := 0; s_when_cuts := 0; s_special := s_special s; s_more_special := s_more_special s;
     s_handler := handler |}.
(** A new CbcModel (Cbc's defaults; no branching method, no choose method). *)
(** CbcModel (external), constructed at PartialBBDisjunction.cpp:150. *)
Definition cbc_new : cbcset :=
  {| s_decision := None; s_choose := None; s_compare := DefaultCompare; s_strong := None; s_trust := None; s_hot := INT_MAX;
     s_seconds := dbl_max; s_lp_seconds := dbl_max; s_lp_presolve := true; s_type_presolve := 0; s_passes_root := 20; s_passes := 10;
     s_when_cuts := -1; s_special := 0; s_more_special := 0; s_handler := (0, DFin 0, false) |}.
(** Lines 97-189, 431-463: from the parameters to the settings.  [None]: a parameter is missing. *)
Definition settings (P : params) (n : nat) (more : Z) : option cbcset :=
  match get_int P DISJ_TERMS, get_int P PARTIAL_BB_NUM_STRONG, get_int P PARTIAL_BB_KEEP_PRUNED_NODES, get_int P PARTIAL_BB_STRATEGY, get_double P PARTIAL_BB_TIMELIMIT with
  | Done terms, Done strong, Done keep, Done strategy, Done limit =>
      let '(compare, branch, choose) := getCbcStrategies strategy in
      Some (setCbcParametersForPartialBB compare branch choose (num_strong strong n) INT_MAX dbl_max (terms, limit, negb (keep =? 0)) (lp_setup more cbc_new))
  | _, _, _, _, _ => None
  end.

(** The end of the search, as Cbc reports it: status(), isProvenOptimal(), getObjValue(), getColSolution(),
    with the state of the handler and the owner's disjunction. *)
(** CbcModel (external), read at PartialBBDisjunction.cpp:180-282. *)
Record search := { se_state : hst; se_status : Z; se_optimal : bool; se_obj : Q; se_sol : nat -> Q }.

(** Result of prepareDisjunction: reason and disjunction; exit(1); undefined behaviour. *)
(** PartialBBDisjunction.cpp:97-282. *)
Inductive prepared := Prepared (e : disjexit) (d : disj) | PrepExit | PrepUndef.

(** Lines 238-244. *)
Definition with_optimum (d : disj) (obj : Q) (sol : nat -> Q) : disj :=
  {| d_terms := d_terms d; d_num_terms := d_num_terms d; d_id := d_id d; d_best := Some obj; d_worst := Some obj; d_iobj := Some obj;
     d_isol := Some sol; d_common := d_common d; d_common_ineqs := d_common_ineqs d; d_root := d_root d; d_var := d_var d |}.
(** Lines 233-281. *)
Definition evaluate (keep : bool) (terms : Z) (s : search) : prepared :=
  let st := se_state s in
  let d := h_disj st in
  match pbb_exit keep terms ((se_status s =? 0) || (se_status s =? 1) || (se_status s =? 2)) (se_optimal s) (Z.of_nat (d_num_terms d)) (h_leaf st)
          (List.length (d_terms d)) (match h_isol st with Some _ => true | None => false end) with
  | PNoDisjunction => Prepared D_NO_DISJUNCTION d
  | POptimal => Prepared D_OPTIMAL_SOLUTION_FOUND (with_optimum d (se_obj s) (se_sol s))
  | PTooFew => Prepared D_TOO_FEW_TERMS d
  | PUnknown => Prepared D_UNKNOWN d
  | PMismatch => PrepExit
  | PSuccess => Prepared D_SUCCESS d
  end.
(** Lines 212-231, compiled only with TRACE: [temp] = TEMP. *)
Definition traced (trace : bool) (temp : Z) (d : disj) (k : prepared) : prepared :=
  if trace && use_temp_option (Z.abs temp) GEN_TIKZ_STRING
  then if use_temp_option temp GEN_TIKZ_STRING_AND_RETURN then Prepared D_SUCCESS d
       else if use_temp_option temp GEN_TIKZ_STRING_AND_EXIT then PrepExit else k
  else k.
(** prepareDisjunction, lines 97-282.  [d]: the disjunction before; [cast]: the given solver is a
    SolverInterface — dynamic_cast of a pointer returns null instead of throwing, so the handlers of lines
    114-119 and 160-163 are never entered and line 150 dereferences null; [run]: the search. *)
Definition prepareDisjunction (trace cast : bool) (P : params) (d : disj) (run : search) : prepared :=
  match get_int P DISJ_TERMS, get_int P PARTIAL_BB_KEEP_PRUNED_NODES, get_int P TEMP with
  | Done terms, Done keep, Done temp =>
      if terms <? 2 then Prepared D_NO_DISJUNCTION d
      else if negb cast then PrepUndef
      else traced trace temp (h_disj (se_state run)) (evaluate (negb (keep =? 0)) terms run)
  | _, _, _ => PrepUndef
  end.

(** Mode DISJ_SET_PBB, CglVPC.cpp:316-341: the parameters of the trees.  Erasing inside the range-for
    invalidates its iterators: [None] = undefined behaviour, as soon as one number is below 2. *)
Fixpoint all_set (P : params) (opts : list Z) : res (list params) :=
  match opts with
  | [] => Done []
  | k :: r => match set_int P DISJ_TERMS k with
              | Done P' => match all_set P r with
                           | Done l => Done (P' :: l)
                           | Exit1 => Exit1 | Terminated => Terminated | Undef => Undef
                           end
              | Exit1 => Exit1 | Terminated => Terminated | Undef => Undef
              end
  end.
(** CglVPC.cpp:316-341. *)
Definition tree_params (P : params) (opts : list Z) : res (list params) :=
  if existsb (fun k => k <? 2) opts then Undef else all_set P opts.

(** DisjunctionSet::prepareDisjunction, Disjunction.cpp:436-452, reasons only ([prep i] of the [i]-th disjunction):
    the reason of the last one prepared. *)
Fixpoint set_reason (preps : list disjexit) (last : disjexit) : disjexit :=
  match preps with
  | [] => last
  | e :: r => match e with D_OPTIMAL_SOLUTION_FOUND => e | _ => set_reason r e end
  end.
