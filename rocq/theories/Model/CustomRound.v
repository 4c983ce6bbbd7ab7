(** Rounds with disjunctions set up outside the generator: setDisjunctions (src/test/DisjunctionHelper.cpp:20-49) and
    doCustomRoundOfCuts (src/main.cpp:1218-1303).  Left out: timers, messages, updateDisjInfo (in [Analysis]), deletion of
    the set. *)
From Verif Require Export Prelude Model.Tolerance Model.Disjunction Model.Generator Model.Generate Model.Analysis.
From Verif Require Import Model.PartialTree.
#[local] Open Scope Q_scope.

(** What setDisjunctions looks at: AWAY, integrality, the solution, the strong-branching answers, the fractional columns, the
    order std::sort gives (all as for [generateSplitDisjunctions]), DISJ_TERMS, and for PARTIAL_BB what preparing the
    tree returned ([PartialTree.prepareDisjunction]). *)
(** DisjunctionHelper.cpp:20-49. *)
Record setupdata := { su_away : Q; su_int : nat -> bool; su_x : nat -> Q; su_ans : nat -> bool -> branchans; su_cands : list nat;
  su_order : list (nat * Q) -> list (nat * Q); su_terms : Z; su_tree : prepared }.
(** DisjunctionHelper.cpp:20-49; [None]: exit(1) or undefined. *)
Definition setDisjunctions (U : setupdata) (mode : vpcmode) (s : dset) : option (dset * exitreason) :=
  match mode with
  | PARTIAL_BB =>
      if (su_terms U <? 2)%Z then Some (s, NO_DISJUNCTION_EXIT)
      else match su_tree U with
           | Prepared e d => match addDisjunction s d with Some s' => Some (s', matchStatus e) | None => None end
           | PrepExit | PrepUndef => None
           end
  | SPLITS =>
      match generateSplitDisjunctions (su_away U) (su_int U) (su_x U) (su_ans U) (su_terms U) true (su_cands U) (su_order U) s with
      | Some (s', n) => Some (s', if Nat.eqb n 0 then NO_DISJUNCTION_EXIT else SUCCESS_EXIT)
      | None => None
      end
  | CROSSES | DISJ_SET_PBB | CUSTOM => None
  end.

(** What the round leaves: generator, pool, reason, boundInfo.num_vpc, best_disj_obj, worst_disj_obj, the counter of disjunctions
    and the statistics of the round. *)
(** main.cpp:1218-1303. *)
Record croundst := { cr_gen : vpc; cr_pool : list ecut; cr_reason : exitreason; cr_nvpc : Z; cr_best : Q; cr_worst : Q; cr_ndisj : Z; cr_info : cutinfo }.
(** setupRepeatedUse, include/CglVPC.hpp:250-252. *)
Definition with_repeat (v : vpc) (b : bool) : vpc :=
  let g := v_g v in
  with_g v {| g_cuts := g_cuts g; g_type := g_type g; g_heur := g_heur g; g_disj := g_disj g; g_ntype := g_ntype g; g_nheur := g_nheur g; g_nobj := g_nobj g;
    g_nfailheur := g_nfailheur g; g_nfails := g_nfails g; g_num_cuts := g_num_cuts g; g_num_obj := g_num_obj g; g_num_fail := g_num_fail g; g_init := g_init g;
    g_canrep := g_canrep g; g_repeat := b; g_mode := g_mode g; g_curr := g_curr g; g_limit := g_limit g |}.
(** A value that may be missing, with the number standing for it. *)
Definition value_of (none : Q) (o : option Q) : Q := match o with Some q => q | None => none end.

(** main.cpp:1269-1290, one disjunction: [o] are the answers met by the call. *)
Definition custom_step (E : genv) (eps : Q) (share : Z) (s : croundst) (d : disj) (o : callans) : option croundst :=
  let v := with_disj (with_g (cr_gen s) (with_limit (v_g (cr_gen s)) share)) true (v_set (cr_gen s)) in
  match generateCuts E v (cr_pool s) o with
  | None => None
  | Some (v', pool) =>
      match updateCutInfo (cr_info s) (v_g v') (map ec pool) eps with
      | None => None
      | Some i =>
          let b := value_of DBL_MAX (d_best d) in let w := value_of (- DBL_MAX) (d_worst d) in
          Some {| cr_gen := v'; cr_pool := pool; cr_reason := v_exit v'; cr_nvpc := cr_nvpc s + Z.of_nat (g_num_cuts (v_g v'));
                  cr_best := if Qltb (cr_best s) b then b else cr_best s; cr_worst := if Qltb (cr_worst s) w then w else cr_worst s;
                  cr_ndisj := cr_ndisj s + 1; cr_info := i |}
      end
  end.
(** main.cpp:1269-1290: the loop over the disjunctions. *)
Fixpoint custom_loop (E : genv) (eps : Q) (share : Z) (s : croundst) (ds : list disj) (asks : nat -> callans) (k : nat) : option croundst :=
  match ds with
  | [] => Some s
  | d :: r => match custom_step E eps share s d (asks k) with Some s' => custom_loop E eps share s' r asks (S k) | None => None end
  end.
(** main.cpp:1238-1257: bounds of a column that the value can be moved away from. *)
Definition fix_cuts (P : lp) (sol : nat -> Q) : list cut :=
  flat_map (fun j =>
    (match clo P j with Some l => if greaterThanVal (sol j) l EPS7 then [{| crow := [(j, 1)]; crhs := sol j |}] else [] | None => [{| crow := [(j, 1)]; crhs := sol j |}] end) ++
    (match cup P j with Some u => if lessThanVal (sol j) u EPS7 then [{| crow := [(j, -(1))]; crhs := - sol j |}] else [] | None => [{| crow := [(j, -(1))]; crhs := - sol j |}] end))
    (seq 0 (ncols P)).
(** The whole function; [P]: the problem, [nfrac]: its fractional columns (default tolerance), [limit]: CUTLIMIT. *)
(** main.cpp:1218-1303. *)
Definition doCustomRoundOfCuts (E : genv) (eps : Q) (P : lp) (nfrac : nat) (limit : Z) (U : setupdata) (asks : nat -> callans) (s : croundst) : option croundst :=
  match setDisjunctions U SPLITS dset_new with
  | None => None
  | Some (D, OPTIMAL_SOLUTION_FOUND_EXIT) =>
      match ds_isol D with
      | None => None
      | Some sol =>
          let v := with_g (cr_gen s) (fold_left (fun g c => insertCut g {| ec := c; eff := 0 |} OPTIMALITY_CUT ONE_SIDED 0) (fix_cuts P sol) (v_g (cr_gen s))) in
          let pool := cr_pool s ++ map (fun c => {| ec := c; eff := 0 |}) (fix_cuts P sol) in
          match updateCutInfo (cr_info s) (v_g v) (map ec pool) eps with
          | None => None
          | Some i => Some {| cr_gen := v; cr_pool := pool; cr_reason := OPTIMAL_SOLUTION_FOUND_EXIT; cr_nvpc := cr_nvpc s + Z.of_nat (g_num_cuts (v_g v));
                              cr_best := cr_best s; cr_worst := cr_worst s; cr_ndisj := cr_ndisj s; cr_info := i |}
          end
      end
  | Some (D, SUCCESS_EXIT) =>
      if Nat.eqb (length (ds_disjs D)) 0 then None
      else
        let share := custom_limit (getCutLimit limit nfrac) (Z.of_nat (length (ds_disjs D))) in
        match custom_loop E eps share {| cr_gen := with_repeat (cr_gen s) true; cr_pool := cr_pool s; cr_reason := cr_reason s; cr_nvpc := cr_nvpc s; cr_best := cr_best s;
                                         cr_worst := cr_worst s; cr_ndisj := cr_ndisj s; cr_info := cr_info s |} (ds_disjs D) asks 0 with
        | None => None
        | Some s' => Some {| cr_gen := with_repeat (cr_gen s') false; cr_pool := cr_pool s'; cr_reason := cr_reason s'; cr_nvpc := cr_nvpc s'; cr_best := cr_best s';
                             cr_worst := cr_worst s'; cr_ndisj := cr_ndisj s'; cr_info := cr_info s' |}
        end
  | Some (D, NO_DISJUNCTION_EXIT) => Some {| cr_gen := cr_gen s; cr_pool := cr_pool s; cr_reason := NO_DISJUNCTION_EXIT; cr_nvpc := cr_nvpc s; cr_best := cr_best s;
                                             cr_worst := cr_worst s; cr_ndisj := cr_ndisj s; cr_info := cr_info s |}
  | Some (_, _) => None
  end.
