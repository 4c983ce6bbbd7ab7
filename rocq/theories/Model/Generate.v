(** CglVPC::generateCuts and CglVPC::tryObjectives (src/cut/CglVPC.cpp:235-556, 1439-1571): the
    control flow around the bookkeeping of [Generator].  Everything the LP solver, the clock, the
    disjunction builders and the objective-choosing heuristics decide is an argument ("oracle"). *)
From Verif Require Export Prelude Model.Tolerance Model.LP Model.CutHelper Model.Generator.

(** include/CglVPC.hpp:42-56 [ExitReason]. *)
Inductive exitreason :=
  SUCCESS_EXIT | CUT_LIMIT_EXIT | FAIL_LIMIT_EXIT | OPTIMAL_SOLUTION_FOUND_EXIT
| PRLP_INFEASIBLE_EXIT | PRLP_NUMERICAL_ISSUES_EXIT | PRLP_TIME_LIMIT_EXIT | TIME_LIMIT_EXIT
| TOO_FEW_TERMS_EXIT | NO_CUTS_LIKELY_EXIT | NO_DISJUNCTION_EXIT | UNKNOWN_EXIT.

(** include/common/Disjunction.hpp:18-25 [DisjExitReason]. *)
Inductive disjexit := D_SUCCESS | D_OPTIMAL_SOLUTION_FOUND | D_TOO_FEW_TERMS | D_NO_DISJUNCTION | D_UNKNOWN.

(** CglVPC.cpp:36-47 [matchStatus]. *)
Definition matchStatus (s : disjexit) : exitreason :=
  match s with
  | D_SUCCESS => SUCCESS_EXIT | D_OPTIMAL_SOLUTION_FOUND => OPTIMAL_SOLUTION_FOUND_EXIT
  | D_TOO_FEW_TERMS => TOO_FEW_TERMS_EXIT | D_NO_DISJUNCTION => NO_DISJUNCTION_EXIT
  | D_UNKNOWN => UNKNOWN_EXIT end.

(** Parameters and members of CglVPC beyond [gstate]. *)
(** include/CglVPC.hpp:307-435. *)
Record vpc := {
  v_g : gstate;
  v_pmode : vpcmode;        (* params.get(MODE) *)
  v_terms : Z;              (* params.get(DISJ_TERMS) *)
  v_flip : Z;               (* params.get(PRLP_FLIP_BETA) *)
  v_tikz : bool;            (* TEMP contains GEN_TIKZ_STRING *)
  v_prlptime : Q;           (* params.get(PRLP_TIMELIMIT) *)
  v_disj : bool;            (* disjunction != NULL *)
  v_set : bool;             (* disjunctionSet != NULL *)
  v_user : list nat;        (* user_objectives *)
  v_exit : exitreason       (* exitReason *)
}.
Definition with_g (v : vpc) (g : gstate) : vpc :=
  {| v_g := g; v_pmode := v_pmode v; v_terms := v_terms v; v_flip := v_flip v; v_tikz := v_tikz v;
     v_prlptime := v_prlptime v; v_disj := v_disj v; v_set := v_set v; v_user := v_user v; v_exit := v_exit v |}.
(** The members disjunction and disjunctionSet are set or not (record update). *)
Definition with_disj (v : vpc) (d s : bool) : vpc :=
  {| v_g := v_g v; v_pmode := v_pmode v; v_terms := v_terms v; v_flip := v_flip v; v_tikz := v_tikz v;
     v_prlptime := v_prlptime v; v_disj := d; v_set := s; v_user := v_user v; v_exit := v_exit v |}.
(** The member user_objectives is assigned (record update). *)
Definition with_user (v : vpc) (u : list nat) : vpc :=
  {| v_g := v_g v; v_pmode := v_pmode v; v_terms := v_terms v; v_flip := v_flip v; v_tikz := v_tikz v;
     v_prlptime := v_prlptime v; v_disj := v_disj v; v_set := v_set v; v_user := u; v_exit := v_exit v |}.
(** CglVPC.cpp:1687-1704 [finish] (the timer is modelled elsewhere). *)
Definition finish (v : vpc) (r : exitreason) : vpc :=
  {| v_g := v_g v; v_pmode := v_pmode v; v_terms := v_terms v; v_flip := v_flip v; v_tikz := v_tikz v;
     v_prlptime := v_prlptime v; v_disj := v_disj v; v_set := v_set v; v_user := v_user v; v_exit := r |}.

(** The mode of the generator is assigned (record update). *)
Definition with_mode (g : gstate) (m : vpcmode) : gstate :=
  {| g_cuts := g_cuts g; g_type := g_type g; g_heur := g_heur g; g_disj := g_disj g;
     g_ntype := g_ntype g; g_nheur := g_nheur g; g_nobj := g_nobj g; g_nfailheur := g_nfailheur g;
     g_nfails := g_nfails g; g_num_cuts := g_num_cuts g; g_num_obj := g_num_obj g;
     g_num_fail := g_num_fail g; g_init := g_init g; g_canrep := g_canrep g; g_repeat := g_repeat g;
     g_mode := m; g_curr := g_curr g; g_limit := g_limit g |}.
(** The index of the current disjunction is assigned, CglVPC.cpp:513-551 (record update). *)
Definition with_curr (g : gstate) (d : nat) : gstate :=
  {| g_cuts := g_cuts g; g_type := g_type g; g_heur := g_heur g; g_disj := g_disj g;
     g_ntype := g_ntype g; g_nheur := g_nheur g; g_nobj := g_nobj g; g_nfailheur := g_nfailheur g;
     g_nfails := g_nfails g; g_num_cuts := g_num_cuts g; g_num_obj := g_num_obj g;
     g_num_fail := g_num_fail g; g_init := g_init g; g_canrep := g_canrep g; g_repeat := g_repeat g;
     g_mode := g_mode g; g_curr := d; g_limit := g_limit g |}.
(** The cut limit is assigned, CglVPC.cpp:282-290 (record update). *)
Definition with_limit (g : gstate) (l : Z) : gstate :=
  {| g_cuts := g_cuts g; g_type := g_type g; g_heur := g_heur g; g_disj := g_disj g;
     g_ntype := g_ntype g; g_nheur := g_nheur g; g_nobj := g_nobj g; g_nfailheur := g_nfailheur g;
     g_nfails := g_nfails g; g_num_cuts := g_num_cuts g; g_num_obj := g_num_obj g;
     g_num_fail := g_num_fail g; g_init := g_init g; g_canrep := g_canrep g; g_repeat := g_repeat g;
     g_mode := g_mode g; g_curr := g_curr g; g_limit := l |}.
(** numFails[f]++ without counting an objective (CglVPC.cpp:851, 1332, 1420, 1467, 1470;
    PRLP.cpp:392-416). *)
Definition noteFailures (g : gstate) (fs : list nat) : gstate :=
  {| g_cuts := g_cuts g; g_type := g_type g; g_heur := g_heur g; g_disj := g_disj g;
     g_ntype := g_ntype g; g_nheur := g_nheur g; g_nobj := g_nobj g; g_nfailheur := g_nfailheur g;
     g_nfails := fold_left (fun f k => bump Nat.eqb f k 1) fs (g_nfails g);
     g_num_cuts := g_num_cuts g; g_num_obj := g_num_obj g;
     g_num_fail := g_num_fail g; g_init := g_init g; g_canrep := g_canrep g; g_repeat := g_repeat g;
     g_mode := g_mode g; g_curr := g_curr g; g_limit := g_limit g |}.

(** Answers for one user objective: limits of time seen by PRLP::solve, by the loop, solve time. *)
(** CglVPC.cpp:1490-1530. *)
Record userans := { ua_attempt : attempt; ua_time0 : bool; ua_solvetime0 : Q; ua_time1 : bool; ua_solvetime1 : Q }.

(** Answers for one disjunction. *)
(** CglVPC.cpp:513-551 and 1439-1560. *)
Record disjrun := {
  dr_time0 : bool;                (* time limit at the top of the loop over disjunctions *)
  dr_setup_fails : list nat;      (* numerical warnings while collecting points and rays *)
  dr_time1 : bool;                (* time limit at the top of tryObjectives *)
  dr_best : Q; dr_worst : Q; dr_lpopt : Q;
  dr_prlp : exitreason;           (* PRLP::setup *)
  dr_prlp_fails : list nat;
  dr_user : nat -> userans;       (* per user objective *)
  dr_target : list attempt;       (* objectives tried by targetStrongAndDifferentCuts, in order *)
  dr_time2 : bool; dr_solvetime2 : Q
}.

(** CglVPC.cpp:1439-1560. *)
Fixpoint genCuts (E : genv) (g : gstate) (l : list attempt) : option gstate :=
  match l with
  | [] => Some g
  | a :: r => match genCut E g a with Some (g', _) => genCuts E g' r | None => None end
  end.

(** CglVPC.cpp:1638-1685 as called during cut generation, with the counts since the start of this disjunction. *)
Definition failLimit (v : vpc) (g : gstate) (c0 f0 : nat) (time : Q) : bool :=
  reachedFailureLimit (g_limit g) (Z.of_nat (g_num_cuts g - c0)) (Z.of_nat (g_num_fail g - f0))
    few_default many_default manyobj_default time (v_prlptime v).

(** CglVPC.cpp:1496-1503, 1536-1543: the limits are tested in this order. *)
Definition limitStatus (v : vpc) (g : gstate) (c0 f0 : nat) (timeup : bool) (time : Q) : exitreason :=
  if timeup then TIME_LIMIT_EXIT
  else if reachedCutLimit g then CUT_LIMIT_EXIT
  else if failLimit v g c0 f0 time then FAIL_LIMIT_EXIT
  else SUCCESS_EXIT.

(** PRLP.cpp:422-438 [PRLP::solve]. *)
Definition solveUser (E : genv) (v : vpc) (g : gstate) (c0 f0 : nat) (u : userans) : option gstate :=
  if reachedCutLimit g || ua_time0 u || failLimit v g c0 f0 (ua_solvetime0 u) then Some g
  else match genCut E g (ua_attempt u) with Some (g', _) => Some g' | None => None end.

(** CglVPC.cpp:1493-1508: loop over the user objectives. *)
Fixpoint userLoop (E : genv) (v : vpc) (g : gstate) (c0 f0 : nat) (ans : nat -> userans) (objs : list nat)
    (status : exitreason) : option (gstate * exitreason) :=
  match objs with
  | [] => Some (g, status)
  | o :: r =>
      match solveUser E v g c0 f0 (ans o) with
      | None => None
      | Some g' =>
          match limitStatus v g' c0 f0 (ua_time1 (ans o)) (ua_solvetime1 (ans o)) with
          | SUCCESS_EXIT => userLoop E v g' c0 f0 ans r SUCCESS_EXIT
          | s => Some (g', s)
          end
      end
  end.

(** CglVPC.cpp:1439-1571 [tryObjectives]. [None] = exit(1). *)
Definition tryObjectives (E : genv) (v : vpc) (g : gstate) (d : disjrun) : option (gstate * exitreason) :=
  if dr_time1 d then Some (g, TIME_LIMIT_EXIT)
  else if reachedCutLimit g then Some (g, CUT_LIMIT_EXIT)
  else
    let LP_OPT_IS_NOT_CUT := negb (greaterThanVal (dr_best d - dr_lpopt d) 0 EPS7) in
    let DLB_EQUALS_DUB := negb (greaterThanVal (dr_worst d) (dr_best d) EPS7) in
    let flipBeta := (0 <? v_flip v)%Z in
    let g1 := noteFailures g ((if LP_OPT_IS_NOT_CUT then [F_DLB_EQUALS_LPOPT_NO_OBJ] else [])
                              ++ (if DLB_EQUALS_DUB then [F_DLB_EQUALS_DUB_NO_OBJ] else [])) in
    if LP_OPT_IS_NOT_CUT && DLB_EQUALS_DUB && negb flipBeta then Some (g1, NO_CUTS_LIKELY_EXIT)
    else
      let c0 := g_num_cuts g1 in
      let f0 := g_num_fail g1 in
      let o0 := g_num_obj g1 in
      let res :=
        if negb LP_OPT_IS_NOT_CUT || negb DLB_EQUALS_DUB then
          let g2 := noteFailures g1 (dr_prlp_fails d) in
          match (match dr_prlp d with
                 | SUCCESS_EXIT => userLoop E v g2 c0 f0 (dr_user d) (v_user v) SUCCESS_EXIT
                 | s => Some (g2, s) end) with
          | None => None
          | Some (g3, SUCCESS_EXIT) =>
              match genCuts E g3 (dr_target d) with
              | None => None
              | Some g4 => Some (g4, limitStatus v g4 c0 f0 (dr_time2 d) (dr_solvetime2 d))
              end
          | Some r => Some r
          end
        else Some (g1, UNKNOWN_EXIT) in
      match res with
      | None => None
      | Some (g5, s) =>
          if flipBeta then None
          else if Nat.eqb (g_num_obj g5 - o0) ((g_num_cuts g5 + g_num_fail g5) - (c0 + f0))
          then Some (g5, s) else None
      end.

(** Answers for one call of generateCuts. *)
(** CglVPC.cpp:235-556. *)
Record callans := {
  ca_time0 : bool;               (* time limit at entry *)
  ca_nfrac : nat;                (* fractional variables with tolerance AWAY *)
  ca_nfrac_default : nat;        (* fractional variables with the default tolerance *)
  ca_optimal : bool;             (* solver proven optimal *)
  ca_disj : disjexit;            (* prepareDisjunction *)
  ca_objcut : cut; ca_objcut_disj : nat;     (* objective cut and disjunction id, when optimal *)
  ca_root : list cut;            (* one-sided cuts from the common root changes, in order *)
  ca_root_ok : bool;             (* false: exit(1) in initializeSolverWithRootChanges/getProblemData *)
  ca_root_fails : list nat;
  ca_setsize : nat;              (* disjunctionSet->size() *)
  ca_run : nat -> disjrun        (* per disjunction *)
}.

(** CglVPC.cpp:881-916: one-sided cuts, each preceded by a cut-limit check; [true] = limit hit. *)
Fixpoint rootCuts (E : genv) (g : gstate) (cs : list cut) : gstate * bool :=
  match cs with
  | [] => (g, false)
  | c :: r =>
      if reachedCutLimit g then (g, true)
      else rootCuts E (fst (addCut E g {| ec := c; eff := 0 |} ONE_SIDED_CUT ONE_SIDED 0 true)) r
  end.

(** CglVPC.cpp:513-551: the loop over disjunctions [k, k+1, ..., k+n-1]. *)
Fixpoint disjLoop (E : genv) (v : vpc) (g : gstate) (run : nat -> disjrun) (k n : nat) (status : exitreason)
  : option (gstate * exitreason) :=
  match n with
  | O => Some (g, status)
  | S n' =>
      let g1 := with_curr g k in
      let d := run k in
      if dr_time0 d then Some (g1, TIME_LIMIT_EXIT)
      else if reachedCutLimit g1 then Some (g1, CUT_LIMIT_EXIT)
      else
        match tryObjectives E v (noteFailures g1 (dr_setup_fails d)) d with
        | None => None
        | Some (g2, s) => disjLoop E v g2 run (S k) n' s
        end
  end.

(** CglVPC.cpp:316-345: the modes that build a set of disjunctions. *)
Definition mode_is_set (m : vpcmode) : bool := match m with DISJ_SET_PBB | SPLITS | CROSSES => true | _ => false end.

(** CglVPC.cpp:235-556 [generateCuts]; result: the generator afterwards and the cut collection.
    [None] = exit(1) or undefined behaviour.  [user_objectives] is emptied by setupAsNew (627). *)
Definition generateCuts (E : genv) (v : vpc) (given : list ecut) (o : callans) : option (vpc * list ecut) :=
  let v0 := with_g v (with_mode (v_g v) (v_pmode v)) in
  if negb (match v_pmode v with DISJ_SET_PBB => true | _ => false end) && (v_terms v =? 0)%Z
  then Some (finish v0 NO_DISJUNCTION_EXIT, given)
  else if ca_time0 o then Some (finish v0 TIME_LIMIT_EXIT, given)
  else
    match beginRound (v_g v0) given with
    | None => None
    | Some g0 =>
        let g1 := with_limit g0 (getCutLimit (g_limit g0) (ca_nfrac o)) in
        let v1 := with_user (with_g v0 g1) [] in
        if reachedCutLimit g1 && negb (v_tikz v)
        then Some (finish v1 (if Nat.ltb 0 (ca_nfrac_default o) then CUT_LIMIT_EXIT else NO_DISJUNCTION_EXIT), g_cuts g1)
        else if negb (v_disj v) && negb (v_set v) then
          match v_pmode v with
          | CUSTOM | CROSSES => None
          | m =>
              if match m with PARTIAL_BB => (v_terms v <? 2)%Z | _ => false end
              then Some (finish v1 NO_DISJUNCTION_EXIT, g_cuts g1)
              else if negb (ca_optimal o) then None
              else
                let v2 := with_disj v1 (negb (mode_is_set m)) (mode_is_set m) in
                let status := matchStatus (ca_disj o) in
                match status with
                | SUCCESS_EXIT =>
                    let g2 := with_curr g1 0 in
                    if mode_is_set m && Nat.eqb (ca_setsize o) 0 then None
                    else
                      let (g3, hit) := rootCuts E g2 (ca_root o) in
                      if hit then Some (finish (with_g v2 g3) CUT_LIMIT_EXIT, g_cuts g3)
                      else if negb (ca_root_ok o) then None
                      else
                        match disjLoop E v2 (noteFailures g3 (ca_root_fails o)) (ca_run o) 0
                                (if mode_is_set m then ca_setsize o else 1%nat) SUCCESS_EXIT with
                        | None => None
                        | Some (g4, s) => Some (finish (with_g v2 g4) s, g_cuts g4)
                        end
                | OPTIMAL_SOLUTION_FOUND_EXIT =>
                    let id := if mode_is_set m then ca_objcut_disj o else O in
                    let g2 := insertCut (with_curr g1 id) {| ec := ca_objcut o; eff := 0 |} OPTIMALITY_CUT OBJ_CUT id in
                    Some (finish (with_g v2 g2) status, g_cuts g2)
                | _ => Some (finish (with_g v2 g1) status, g_cuts g1)
                end
          end
        else None   (* mode := CUSTOM; lines 380-385 or 497-503 then call exit(1) *)
    end.
