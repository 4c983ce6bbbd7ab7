(** Where the library starts and ends its timers.
    Only the timer calls and the control flow around them are modelled: every condition is a free
    choice, every loop runs any number of times, [break] is "this was the last iteration", and the
    clock is arbitrary.  A routine therefore has at least the executions the code has. *)
From Verif Require Import Prelude Model.TimeStats.
From Coq Require Import DecimalString.

(** Control flow around the timer calls of CglVPC.cpp, PRLP.cpp, SplitDisjunction.cpp and PartialBBDisjunction.cpp. *)
Inductive cmd :=
| Skip
| TC (c : tcall)                 (* a call on the timer object *)
| Seq (a b : cmd)
| Alt (a b : cmd)                (* if/else on any condition *)
| Loop (a : cmd)                 (* for/while *)
| Any (f : nat -> cmd)           (* for a run-time index *)
| Return
| Exit                           (* exit(1) *)
| Call (a : cmd).                (* call of a routine: its return ends only itself *)
Declare Scope cmd_scope.
Delimit Scope cmd_scope with cmd.
Notation "a ;; b" := (Seq a b) (at level 60, right associativity) : cmd_scope.
(** if without else, on any condition. *)
Definition Maybe (a : cmd) : cmd := Alt a Skip.

(** How a piece of code ends: it falls through, returns, calls exit(1), or an assert of a timer fails. *)
Inductive outcome := Norm | Ret | Exited | AssertFails.

(** The executions of a piece of code, from one state of the timers to another. *)
Inductive runs : cmd -> tstats -> outcome -> tstats -> Prop :=
| r_skip s : runs Skip s Norm s
| r_call c s now s' : tstep s (now, c) = Some s' -> runs (TC c) s Norm s'
| r_fail c s now : tstep s (now, c) = None -> runs (TC c) s AssertFails s
| r_seq a b s s1 o s2 : runs a s Norm s1 -> runs b s1 o s2 -> runs (Seq a b) s o s2
| r_seq_stop a b s o s1 : runs a s o s1 -> o <> Norm -> runs (Seq a b) s o s1
| r_alt_l a b s o s1 : runs a s o s1 -> runs (Alt a b) s o s1
| r_alt_r a b s o s1 : runs b s o s1 -> runs (Alt a b) s o s1
| r_loop_end a s : runs (Loop a) s Norm s
| r_loop_more a s s1 o s2 : runs a s Norm s1 -> runs (Loop a) s1 o s2 -> runs (Loop a) s o s2
| r_loop_stop a s o s1 : runs a s o s1 -> o <> Norm -> runs (Loop a) s o s1
| r_any f i s o s1 : runs (f i) s o s1 -> runs (Any f) s o s1
| r_return s : runs Return s Ret s
| r_exit s : runs Exit s Exited s
| r_routine a s o s1 : runs a s o s1 -> runs (Call a) s (match o with Ret => Norm | _ => o end) s1.

(** timer.start_timer(name), TimeStats.hpp:127-129. *)
Definition start (n : string) : cmd := TC (Start (ByName n)).
(** timer.end_timer(name), TimeStats.hpp:140-142. *)
Definition end_ (n : string) : cmd := TC (End (ByName n)).
Local Open Scope cmd_scope.

(** CglVPC.cpp:63-71 VPCTimeStatsName, 75-89 ObjectiveTypeName (used with "_TIME" appended). *)
Definition VPCTimeStatsName : list string :=
  ["TOTAL_TIME"; "INIT_SOLVE_TIME"; "DISJ_SETUP_TIME"; "GEN_DISJ_TIME"; "PRLP_SETUP_TIME"; "PRLP_SOLVE_TIME"; "GEN_CUTS_TIME"].
(** CglVPC.cpp:75-89. *)
Definition ObjectiveTypeName : list string :=
  ["DUMMY_OBJ"; "ALL_ONES"; "CUT_VERTICES"; "ITER_BILINEAR"; "UNIT_VECTORS"; "DISJ_LB"; "TIGHT_POINTS"; "TIGHT_RAYS";
   "TIGHT_POINTS2"; "TIGHT_RAYS2"; "USER"; "OBJ_CUT"; "ONE_SIDED"].
(** CglVPC.cpp:680-685: the names registered. *)
Definition base_names : list string := VPCTimeStatsName ++ map (fun n => n ++ "_TIME")%string ObjectiveTypeName.
(** CglVPC.cpp:680-685: registration in initialize. *)
Definition initialize (now : nat) : tstats :=
  fold_left (fun s n => register_name s now n 0) base_names ts_new.

(** CglVPC.cpp:111-112 and std::to_string. *)
Definition to_string (i : nat) : string := NilEmpty.string_of_uint (Nat.to_uint i).
(** CglVPC.cpp:111, with a suffix. *)
Definition time_T1 (x : string) : string := ("TIME_TYPE1_" ++ x)%string.
(** CglVPC.cpp:112, with a suffix. *)
Definition time_T2 (x : string) : string := ("TIME_TYPE2_" ++ x)%string.

(** PartialBBDisjunction.cpp:173-189 (the timer set). *)
Definition pbb_prepare : cmd := Maybe Exit;; start "GEN_DISJ_TIME";; end_ "GEN_DISJ_TIME";; Maybe Exit;; Return.

(** SplitDisjunction.cpp:74-170 prepareDisjunction, by whether a variable is already chosen
    (105-111, [var >= 0]) or has to be found (112-156); 131-135 returns early. *)
Definition split_prepare_given : cmd := start "GEN_DISJ_TIME";; Maybe Exit;; end_ "GEN_DISJ_TIME";; Return.
(** SplitDisjunction.cpp:74-170 when a variable has to be found (112-156). *)
Definition split_prepare_search : cmd :=
  start "GEN_DISJ_TIME";; Maybe Exit;; Maybe Return;; end_ "GEN_DISJ_TIME";; Return.

(** CglVPC.cpp:1170-1287 setupConstraints: for each term (lines 1205-1221). *)
Definition setup_constraints : cmd :=
  Loop (Maybe
    (Any (fun i =>
       TC (Register (time_T1 (to_string i)) 0);; TC (Register (time_T2 (to_string i)) 0);;
       Maybe (start (time_T1 "TOTAL");; start (time_T1 (to_string i));;
              Maybe Exit;;
              end_ (time_T1 "TOTAL");; end_ (time_T1 (to_string i))))));;
  Return.

(** PRLP.cpp:64-420 setup: 65 and 345 address PRLP_SETUP_TIME by the value of the enum (4). *)
Definition prlp_setup : cmd :=
  TC (Start (ById 4));; Maybe Exit;; TC (End (ById 4));;
  Maybe Return;;
  start "DUMMY_OBJ_TIME";; end_ "DUMMY_OBJ_TIME";; Return.

(** PRLP.cpp:577-636 genCut and 764-818 exitGenCut: every return goes through exitGenCut, which
    ends the timer first. *)
Definition exit_gen_cut : cmd := end_ "PRLP_SOLVE_TIME";; Maybe Exit;; Return.
(** PRLP.cpp:577-636. *)
Definition gen_cut : cmd :=
  start "PRLP_SOLVE_TIME";;
  Maybe (Call exit_gen_cut;; Return);;
  Maybe (Call exit_gen_cut;; Return);;
  Maybe (Call exit_gen_cut;; Return);;
  Call exit_gen_cut;; Return.
(** PRLP.cpp:422-438 solve. *)
Definition prlp_solve : cmd := Maybe Return;; Call gen_cut;; Return.
(** PRLP.cpp:494-510 tryOneObjective. *)
Definition try_one : cmd := Call gen_cut;; Return.
(** PRLP.cpp:947-1326 findCutsTightOnPoint. *)
Definition find_tight : cmd :=
  Call try_one;; Maybe Return;; Maybe Return;; Maybe Return;;
  Loop (Maybe (Call try_one));; Return.
(** PRLP.cpp:1711-1979 iterateDeepestCutPostGomory. *)
Definition iterate_deepest : cmd :=
  Maybe Return;; Maybe Return;; Maybe Exit;; Call gen_cut;; Maybe Return;; Maybe Return;;
  Loop (Maybe Return;; Maybe (Call gen_cut;; Maybe Return));; Return.

(** PRLP.cpp:1332-1701 targetStrongAndDifferentCuts: one block per heuristic. *)
Definition loop_block (name : string) (try : cmd) : cmd :=
  start name;;
  Loop (Maybe (end_ name;; Return);; Maybe (Call try));;
  end_ name.
(** PRLP.cpp:1332-1701. *)
Definition target_cuts : cmd :=
  Maybe Return;;
  Maybe (start "ALL_ONES_TIME";; Call try_one;; end_ "ALL_ONES_TIME";; Maybe Return);;
  Maybe (start "ITER_BILINEAR_TIME";; Call iterate_deepest;; end_ "ITER_BILINEAR_TIME";; Maybe Return);;
  start "PRLP_SOLVE_TIME";; end_ "PRLP_SOLVE_TIME";;
  Maybe (start "DISJ_LB_TIME";; Call find_tight;; end_ "DISJ_LB_TIME";; Maybe Return);;
  Maybe (loop_block "TIGHT_POINTS_TIME" find_tight);; Maybe Return;;
  Maybe (loop_block "UNIT_VECTORS_TIME" try_one);; Maybe Return;;
  Maybe (loop_block "TIGHT_RAYS_TIME" try_one);; Maybe Return;;
  Maybe (loop_block "TIGHT_POINTS2_TIME" find_tight);; Maybe Return;;
  Maybe (loop_block "TIGHT_RAYS2_TIME" try_one);;
  Return.

(** CglVPC.cpp:1439-1571 tryObjectives. *)
Definition try_objectives : cmd :=
  Maybe Return;; Maybe Return;; Maybe Return;;
  Maybe (Call prlp_setup;; Loop (Call prlp_solve);;
         Maybe (start "GEN_CUTS_TIME";; Call target_cuts;; end_ "GEN_CUTS_TIME"));;
  Maybe Exit;; Maybe Exit;; Return.

(** CglVPC.cpp:1687-1702 finish. *)
Definition finish : cmd := end_ "TOTAL_TIME".

(** CglVPC.cpp:235-556 generateCuts; 410-420: the disjunctions built by the generator are one
    partial tree, a set of partial trees, or a set of splits with their variables given. *)
Definition prepare : cmd :=
  Alt (Call pbb_prepare) (Alt (Loop (Call pbb_prepare)) (Loop (Call split_prepare_given))).
(** CglVPC.cpp:235-556. *)
Definition generate_cuts : cmd :=
  start "TOTAL_TIME";;
  Maybe (finish;; Return);; Maybe (finish;; Return);; Maybe Exit;; Maybe (finish;; Return);;
  Maybe Exit;; Maybe (finish;; Return);; Maybe Exit;;
  Maybe (prepare;; Maybe (finish;; Return));;
  Maybe Exit;; Maybe (finish;; Return);;
  Loop (Maybe (Call setup_constraints;; Maybe (Call try_objectives)));;
  finish;; Return.
