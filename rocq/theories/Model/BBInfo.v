(** Bookkeeping of repeated branch-and-bound runs: src/test/BBHelper.cpp (BBInfo, include/test/
    BBHelper.hpp:25-37).  Doubles are exact rationals; [long] fields are integers (no overflow). *)
From Verif Require Export Prelude Model.TextUtil Model.LP.

Record bbinfo := { bb_obj : Q; bb_bound : Q; bb_iters : Z; bb_nodes : Z; bb_root_passes : Z;
                   bb_first_cut_pass : Q; bb_last_cut_pass : Q; bb_root_iters : Z;
                   bb_root_time : Q; bb_last_sol_time : Q; bb_time : Q }.
(** BBHelper.hpp:25-37: default member initialisers. *)
Definition bb_zero : bbinfo := Build_bbinfo 0 0 0 0 0 0 0 0 0 0 0.

(** CoinMin(a, b) = (a < b) ? a : b, CoinMax(a, b) = (a > b) ? a : b (CoinHelperFunctions / CoinFinite). *)
Definition qmin (a b : Q) : Q := if Qltb a b then a else b.
(** CoinMax on doubles (external), BBHelper.cpp:343-357. *)
Definition qmax (a b : Q) : Q := if Qltb b a then a else b.
(** CoinMin on longs (external), BBHelper.cpp:343-357. *)
Definition zmin (a b : Z) : Z := if (a <? b)%Z then a else b.

(** BBHelper.cpp:345-357 [updateBestBBInfo]. *)
Definition updateBestBBInfo (b c : bbinfo) (first : bool) : bbinfo :=
  if first then c
  else Build_bbinfo (qmin (bb_obj b) (bb_obj c)) (qmax (bb_bound b) (bb_bound c))
         (zmin (bb_iters b) (bb_iters c)) (zmin (bb_nodes b) (bb_nodes c))
         (zmin (bb_root_passes b) (bb_root_passes c))
         (qmax (bb_first_cut_pass b) (bb_first_cut_pass c)) (qmax (bb_last_cut_pass b) (bb_last_cut_pass c))
         (zmin (bb_root_iters b) (bb_root_iters c)) (qmin (bb_root_time b) (bb_root_time c))
         (qmin (bb_last_sol_time b) (bb_last_sol_time c)) (qmin (bb_time b) (bb_time c)).

(** BBHelper.cpp:359-385 [averageBBInfo]: the content of [avg] is the starting value of the sums;
    dividing longs by zero (no runs) is undefined: [None].  C division truncates. *)
Definition bb_add (a c : bbinfo) : bbinfo :=
  Build_bbinfo (bb_obj a + bb_obj c) (bb_bound a + bb_bound c) (bb_iters a + bb_iters c) (bb_nodes a + bb_nodes c)
    (bb_root_passes a + bb_root_passes c) (bb_first_cut_pass a + bb_first_cut_pass c)
    (bb_last_cut_pass a + bb_last_cut_pass c) (bb_root_iters a + bb_root_iters c)
    (bb_root_time a + bb_root_time c) (bb_last_sol_time a + bb_last_sol_time c) (bb_time a + bb_time c).
(** BBHelper.cpp:374-384: the sums divided by the number of runs. *)
Definition bb_divide (a : bbinfo) (n : Z) : bbinfo :=
  let q := inject_Z n in
  Build_bbinfo (bb_obj a / q) (bb_bound a / q) (Z.quot (bb_iters a) n) (Z.quot (bb_nodes a) n)
    (Z.quot (bb_root_passes a) n) (bb_first_cut_pass a / q) (bb_last_cut_pass a / q) (Z.quot (bb_root_iters a) n)
    (bb_root_time a / q) (bb_last_sol_time a / q) (bb_time a / q).
(** BBHelper.cpp:359-385. *)
Definition averageBBInfo (avg : bbinfo) (info : list bbinfo) : option bbinfo :=
  match info with
  | [] => None
  | _ => Some (bb_divide (fold_left bb_add info avg) (Z.of_nat (length info)))
  end.

(** SummaryBBInfo, BBHelper.hpp:57-61. *)
Record summary := { sm_num_cuts : Z; sm_first : bbinfo; sm_best : bbinfo; sm_avg : bbinfo; sm_vec : list bbinfo }.
(** A new SummaryBBInfo, BBHelper.hpp:56-60. *)
Definition sm_new : summary := {| sm_num_cuts := 0; sm_first := bb_zero; sm_best := bb_zero; sm_avg := bb_zero; sm_vec := [] |}.

(** BBHelper.cpp:319-341, for one of the three summaries: [runs] are the results written by the
    branch-and-bound solver, one per run (resized to num_bb_runs at 93-107). *)
Fixpoint best_loop (b : bbinfo) (first : bool) (runs : list bbinfo) : bbinfo :=
  match runs with
  | [] => b
  | r :: l => best_loop (updateBestBBInfo b r first) false l
  end.
(** BBHelper.cpp:319-341. *)
Definition finish_runs (s : summary) (ncuts : Z) (runs : list bbinfo) : option summary :=
  match runs with
  | [] => None
  | r :: _ =>
      match averageBBInfo (sm_avg s) runs with
      | None => None
      | Some avg => Some {| sm_num_cuts := ncuts; sm_first := r; sm_best := best_loop (sm_best s) true runs;
                            sm_avg := avg; sm_vec := runs |}
      end
  end.

(** BBHelper.cpp:62-85: how many runs, and with which cuts. *)
Definition num_bb_runs (bb_runs disj_terms num_vpcs : Z) : Z :=
  Z.abs bb_runs * (if (disj_terms =? 0)%Z || (0 <? num_vpcs)%Z then 1 else 0).
(** BBHelper.cpp:62-85: number of runs and which of the three kinds are made. *)
Record bbplan := { pl_runs : Z; pl_nocuts : bool; pl_vpcs : bool; pl_gmics : bool }.
(** [None]: return before anything is done. *)
(** BBHelper.cpp:62-85. *)
Definition bb_plan (bb_runs mode disj_terms num_vpcs num_gmics : Z) : option bbplan :=
  let n := num_bb_runs bb_runs disj_terms num_vpcs in
  if (n =? 0)%Z then None
  else
    let ones := Z.rem mode 10 in
    let tens := Z.quot (Z.rem mode 100 - Z.rem mode 10) 10 in
    let hundreds := Z.quot (Z.rem mode 1000 - Z.rem mode 100) 100 in
    let nc := (0 <? ones)%Z in
    let v := (0 <? tens)%Z && (0 <? num_vpcs)%Z in
    let g := (0 <? hundreds)%Z && (0 <? num_gmics)%Z in
    if negb (nc || v || g) then None
    else Some {| pl_runs := n; pl_nocuts := nc; pl_vpcs := v; pl_gmics := g |}.
(** BBHelper.cpp:103-107, 121-126: the cuts of the third kind of run and the number reported. *)
Definition all_cuts {C : Type} (p : bbplan) (vpcs gmics : list C) : list C :=
  (if pl_vpcs p then vpcs else []) ++ (if pl_gmics p then gmics else []).
(** BBHelper.cpp:103-107 and 121-126. *)
Definition all_cuts_number {C : Type} (vpcs gmics : list C) : Z := Z.of_nat (length vpcs + length gmics).

(** BBHelper.cpp:387-403 [createStringFromBBInfoVec], one of the strings; [print] is the conversion
    of that field; [s] is the string's content before (the function does not clear it). *)
Definition add_entry (print : bbinfo -> text) (s : text) (i : bbinfo) : text :=
  s ++ (match s with [] => [] | _ => txt ";" end) ++ print i.
(** BBHelper.cpp:387-403: the loop over the runs. *)
Definition entries (print : bbinfo -> text) (s : text) (l : list bbinfo) : text := fold_left (add_entry print) l s.

(** ** The permuted problem of a run, BBHelper.cpp:108-118 and 139-203. *)

(** BBHelper.cpp:109-118: the identity permutations.  The column vector is given the number of rows;
    writing beyond it is undefined. *)
Definition row_identity (P : lp) : list nat := seq 0 (nrows P).
(** BBHelper.cpp:109-118: the column permutation before shuffling. *)
Definition col_identity (P : lp) : option (list nat) :=
  if Nat.leb (ncols P) (nrows P) then Some (seq 0 (ncols P) ++ repeat O (nrows P - ncols P)) else None.

(** BBHelper.cpp:157-199: rows in the order [rp], then columns in the order [cp]: entry (row, col)
    of the new matrix is entry (rp row, cp col) of the old one; each old entry of the row goes to the
    columns that take its column.  [ints'] is what setInteger(curr_col) marks. *)
Definition permute_row (n : nat) (cp : nat -> nat) (r : list (nat * Q)) : list (nat * Q) :=
  flat_map (fun c => map (fun e => (c, snd e)) (filter (fun e => Nat.eqb (fst e) (cp c)) r)) (seq 0 n).
(** BBHelper.cpp:157-199: the permuted problem. *)
Definition permuted (P : lp) (rp cp : list nat) : lp :=
  let rpf := fun i => nth i rp O in
  let cpf := fun j => nth j cp O in
  {| ncols := ncols P; nrows := nrows P; clo := fun j => clo P (cpf j); cup := fun j => cup P (cpf j);
     rows := fun i => {| rcoef := permute_row (ncols P) cpf (rcoef (rows P (rpf i)));
                         rlo := rlo (rows P (rpf i)); rup := rup (rows P (rpf i)) |};
     obj := fun j => obj P (cpf j) |}.
(** BBHelper.cpp:157-199: which columns are marked integer. *)
Definition permuted_ints (P : lp) (ints : nat -> bool) (cp : list nat) : nat -> bool :=
  fun k => existsb (fun col => ints (nth col cp O) && Nat.eqb (nth col cp O) k) (seq 0 (ncols P)).
