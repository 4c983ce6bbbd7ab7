(** The file with one line per round of cuts: src/main.cpp:379-457 (opening, names, round 0), 742-819 (a round), 867-869 (closing), with the
    times measured in the rounds (241-247, 479-520, 541-637, 655-697).  Modes other than CUSTOM.  Simplifications: digits and formats of
    numbers are not modelled (as in Model/LogRow.v), nor the rounding of the divisions; COMPUTE_COND_NUM is false in both
    branches of lines 231-235, so the columns for condition numbers do not exist. *)
From Coq Require Import String.
From Verif Require Export Prelude Model.Tolerance Model.LP Model.LogRow Model.Analysis Model.MainRounds Model.MainProgram Model.TextUtil.
From Verif Require Import Model.Names Model.Parameters.
From Verif Require Model.TimeStats.
#[local] Open Scope Q_scope.
#[local] Open Scope string_scope.
#[local] Open Scope list_scope.

(** Lines 384-393: the name.  [dir] is "" when parseFilename fails on the name of the log file (its result is not looked at). *)
Definition cutrounds_name (logname instname : text) (terms : Z) : text :=
  (if text_eqb logname [] then txt "cutrounds"
   else match parseFilename logname with Parsed dir _ _ => dir | ParseErr _ => [] end ++ txt "/" ++ txt "cutrounds" ++ txt "_" ++ instname)
  ++ txt "_d" ++ (if (terms =? INT_MAX)%Z then txt "inf" else if (terms =? - INT_MAX)%Z then txt "-inf" else int_text terms) ++ txt ".csv".

(** Lines 402-422. *)
Definition round_names (instname : string) : list string :=
  [instname; "bound_gmic"; "bound_vpc"; "bound_all_cuts";
   "num_gmic"; "min_density_gmic"; "max_density_gmic"; "avg_density_gmic"; "gmic_gen_time"; "gmic_apply_time";
   "num_vpc"; "min_density_vpc"; "max_density_vpc"; "avg_density_vpc"; "vpc_gen_time"; "vpc_apply_time"].
(** Line 382 without condition numbers: the number the asserts compare with. *)
Definition NUM_CUTROUND_INFO : nat := 1 + 3 + 2 * 6.

(** stringValue(x, format, 1e100). *)
Definition str100 (d : dval) : field :=
  match d with
  | LogRow.DFin x => if isInfinity x (inject_Z (10 ^ 100)) EPS7 then InfF else if isNegInfinity x (- inject_Z (10 ^ 100)) EPS7 then NegInfF else NumF x
  | DPosInf => InfF | DNegInf => NegInfF | DNan => InfF
  end.
(** Lines 750-776, 784-810: 100 * support / number of columns if there are cuts; [None]: the average is not a number. *)
Definition density (num : nat) (supp : option Q) (n : nat) : field :=
  str100 (if (0 <? num)%nat then match supp with Some a => ddiv (100 * a) (inject_Z (Z.of_nat n)) | None => DNan end else LogRow.DFin 0).

(** The four times of a round: generating and applying GMICs, generating and applying VPCs. *)
(** main.cpp:475-697. *)
Record rtimes := { rt_ggen : Q; rt_gapp : Q; rt_vgen : Q; rt_vapp : Q }.
(** Line 746: boundInfoVec[round].gmic_obj, which stays at its initial value with GOMORY = 0; [junk]: what a solver that is not
    optimal returns as its objective value. *)
Definition bound_cell (junk : Q) (v : option Q) : field := strQ (match v with Some v => v | None => junk end).
(** Lines 745-817. *)
Definition round_row (g : Z) (junk : Q) (n k : nat) (r : roundinfo) (cg cv : cutinfo) (t : rtimes) : list field :=
  [IntF (Z.of_nat k + 1); if (g =? 0)%Z then strQ DBL_MAX else bound_cell junk (ri_gmic r); bound_cell junk (ri_vpc r); bound_cell junk (ri_all r);
   IntF (Z.of_nat (ri_ngmic r)); density (ri_ngmic r) (Some (inject_Z (ci_min cg))) n; density (ri_ngmic r) (Some (inject_Z (ci_max cg))) n;
   density (ri_ngmic r) (ci_avg cg) n; NumF (rt_ggen t); NumF (rt_gapp t);
   IntF (Z.of_nat (ri_nvpc r)); density (ri_nvpc r) (Some (inject_Z (ci_min cv))) n; density (ri_nvpc r) (Some (inject_Z (ci_max cv))) n;
   density (ri_nvpc r) (ci_avg cv) n; NumF (rt_vgen t); NumF (rt_vapp t)].
(** Lines 431-456: round 0; [init]: the time of the first solve. *)
Definition first_row (lp_obj init : Q) : list field :=
  [IntF 0; strQ lp_obj; strQ lp_obj; strQ lp_obj; IntF 0; NumF 0; NumF 0; NumF 0; NumF 0; NumF init; IntF 0; NumF 0; NumF 0; NumF 0; NumF 0; NumF init].
(** Entries followed by the end of the line. *)
Definition line (l : list field) : list tok := map Cell l ++ [Newline].

(** ** The timers.  The ids are those of OverallTimeStats (main.cpp:53-70). *)
Definition GOMORY_GEN_TIME : TimeStats.key := TimeStats.ById 1.
(** main.cpp:53-70: the id of this timer. *)
Definition GOMORY_APPLY_TIME : TimeStats.key := TimeStats.ById 2.
(** main.cpp:53-70: the id of this timer. *)
Definition CUT_TOTAL_TIME : TimeStats.key := TimeStats.ById 3.
(** main.cpp:53-70: the id of this timer. *)
Definition VPC_GEN_TIME : TimeStats.key := TimeStats.ById 4.
(** main.cpp:53-70: the id of this timer. *)
Definition VPC_APPLY_TIME : TimeStats.key := TimeStats.ById 5.
(** main.cpp:53-70: the id of this timer. *)
Definition TOTAL_APPLY_TIME : TimeStats.key := TimeStats.ById 13.
(** Calls in sequence; a failing assert ends the run. *)
Definition andthen {A B} (x : option A) (f : A -> option B) : option B := match x with Some a => f a | None => None end.
(** The order of calls in one round; [c i]: the clock at the [i]-th call; [adds]: what lines 617-635 add to timers 6 to 11.
    [None]: an assert of the timer fails. *)
Definition gomory_times (c : nat -> nat) (g : Z) (s : TimeStats.tstats) : option (TimeStats.tstats * Q * Q) :=
  if (g =? -1)%Z || (g =? 1)%Z then
    let t0 := TimeStats.get_total_time s (c 1%nat) GOMORY_GEN_TIME in
    andthen (TimeStats.start_timer s (c 2%nat) GOMORY_GEN_TIME) (fun s =>
    andthen (TimeStats.end_timer s (c 3%nat) GOMORY_GEN_TIME) (fun s =>
    let t1 := TimeStats.get_total_time s (c 4%nat) GOMORY_GEN_TIME in
    andthen (TimeStats.start_timer s (c 5%nat) GOMORY_APPLY_TIME) (fun s =>
    let t2 := TimeStats.get_total_time s (c 6%nat) GOMORY_APPLY_TIME in
    let t3 := TimeStats.get_total_time s (c 7%nat) GOMORY_APPLY_TIME in
    andthen (TimeStats.end_timer s (c 8%nat) GOMORY_APPLY_TIME) (fun s => Some (s, t1 - t0, t3 - t2)))))
  else Some (s, 0, 0).
(** main.cpp:551-638: the timer around generating VPCs, and the time added in this round. *)
Definition vpc_times (c : nat -> nat) (should : bool) (adds : list Z) (s : TimeStats.tstats) : option (TimeStats.tstats * Q) :=
  if should then
    let t0 := TimeStats.get_total_time s (c 9%nat) VPC_GEN_TIME in
    andthen (TimeStats.start_timer s (c 10%nat) VPC_GEN_TIME) (fun s =>
    let s := fold_left (fun s '(i, v) => TimeStats.add_value s (TimeStats.ById i) v) (combine [6; 7; 8; 9; 10; 11]%Z adds) s in
    andthen (TimeStats.end_timer s (c 11%nat) VPC_GEN_TIME) (fun s => Some (s, TimeStats.get_total_time s (c 12%nat) VPC_GEN_TIME - t0)))
  else Some (s, 0).
(** main.cpp:661-697: the timer around applying VPCs, and the time added in this round. *)
Definition apply_times (c : nat -> nat) (some_cuts : bool) (s : TimeStats.tstats) : option (TimeStats.tstats * Q) :=
  if some_cuts then
    let t0 := TimeStats.get_total_time s (c 15%nat) VPC_APPLY_TIME in
    andthen (TimeStats.start_timer s (c 16%nat) VPC_APPLY_TIME) (fun s =>
    andthen (TimeStats.end_timer s (c 17%nat) VPC_APPLY_TIME) (fun s => Some (s, TimeStats.get_total_time s (c 18%nat) VPC_APPLY_TIME - t0)))
  else Some (s, 0).
(** main.cpp:475-697: all timers of one round. *)
Definition round_times (c : nat -> nat) (g : Z) (should some_cuts : bool) (adds : list Z) (s : TimeStats.tstats) : option (TimeStats.tstats * rtimes) :=
  andthen (TimeStats.start_timer s (c 0%nat) CUT_TOTAL_TIME) (fun s =>
  andthen (gomory_times c g s) (fun '(s, gg, ga) =>
  andthen (vpc_times c should adds s) (fun '(s, vg) =>
  andthen (TimeStats.end_timer s (c 13%nat) CUT_TOTAL_TIME) (fun s =>
  andthen (TimeStats.start_timer s (c 14%nat) TOTAL_APPLY_TIME) (fun s =>
  andthen (apply_times c some_cuts s) (fun '(s, va) =>
  andthen (TimeStats.end_timer s (c 19%nat) TOTAL_APPLY_TIME) (fun s => Some (s, {| rt_ggen := gg; rt_gapp := ga; rt_vgen := vg; rt_vapp := va |})))))))).

(** ** The loop with the file.  [gens k]: the generator's state at the end of round [k]; [clk k]: its clock readings. *)
(** cutInfoGMICVec[round] (line 536) and cutInfoVec[round] (610, 641); [None]: exit(1). *)
Definition gmic_info (g : Z) (eps : Q) (e : roundenv) : cutinfo :=
  if (g =? -1)%Z || (g =? 1)%Z then updateGMICInfo ci_new (re_gmics e) eps else ci_new.
(** main.cpp:610 and 641. *)
Definition vpc_info (eps : Q) (e : roundenv) (gs : gstate) : option cutinfo :=
  if re_should e then updateCutInfo ci_new gs (re_vpcs e) eps else setCutInfo ci_new [].
(** main.cpp:470-720: the loop over the rounds with the lines it prints. *)
Fixpoint printed_rounds (g : Z) (ask : nat -> nat -> solver_oracle) (env : nat -> roundenv) (gens : nat -> gstate) (clk : nat -> nat -> nat) (adds : nat -> list Z)
    (eps junk : Q) (n fuel k : nat) (s : mainst) (ts : TimeStats.tstats) (file : list tok) : option (mainst * TimeStats.tstats) * list tok :=
  match fuel with
  | O => (Some (s, ts), file)
  | S f =>
      match gomory_part g (ask k) (env k) s with
      | None => (None, file)
      | Some s1 =>
          match vpc_info eps (env k) (gens k) with
          | None => (None, file)
          | Some cv =>
              match apply_part g (ask k) (env k) (m_obj (s_solver s)) (vpc_part (env k) s1) with
              | None => (None, file)
              | Some s2 =>
                  match round_times (clk k) g (re_should (env k)) (negb (is_nil (round_vpcs (env k)))) (adds k) ts, rev (s_rounds s2) with
                  | Some (ts', t), r :: _ =>
                      let file' := file ++ line (round_row g junk n k r (gmic_info g eps (env k)) cv t) in
                      if stops g (env k) s2 then (Some (s2, ts'), file') else printed_rounds g ask env gens clk adds eps junk n f (S k) s2 ts' file'
                  | _, _ => (None, file)
                  end
              end
          end
      end
  end.
(** Lines 379-457 and the loop: [None] as file: the option is off, no file is opened; a file that cannot be opened ends the program. *)
Definition cutrounds (temp g : Z) ask env gens clk adds (eps junk : Q) (instname : string) (P : lp) (v0 init : Q) (ts : TimeStats.tstats) (rounds : nat) : option (mainst * TimeStats.tstats) * option (list tok) :=
  let '(r, file) := printed_rounds g ask env gens clk adds eps junk (ncols P) rounds 0 (main_start P v0) ts
                      (line (map TextF (round_names instname)) ++ line (first_row v0 init)) in
  (r, if use_temp_option temp PRINT_BOUND_BY_ROUND then Some file else None).
