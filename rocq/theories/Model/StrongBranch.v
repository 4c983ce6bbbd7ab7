(** Branching decisions: src/branch/CbcBranchStrongDecision.cpp and src/branch/OsiChooseStrongCustom.cpp.
    Doubles are rationals; LP answers are arguments. *)
From Verif Require Export Prelude Model.Tolerance.
#[local] Open Scope Q_scope.

Definition Qmn (a b : Q) : Q := if Qltb a b then a else b.   (* CoinMin *)
Definition Qmx (a b : Q) : Q := if Qltb b a then a else b.   (* CoinMax *)

(** ** CbcBranchStrongDecision.cpp. *)
(** One candidate after strong branching: change of the objective and number of infeasibilities in the up
    and down branch, and the user's preferred way (0 = none). *)
(** CbcBranchStrongDecision.cpp:180-250. *)
Record scand := { sc_up : Q; sc_dn : Q; sc_nup : Z; sc_ndn : Z; sc_pref : Z }.

(** bestBranch, lines 180-450, with the method it forces (line 245: 1); [None]: whichObject = -1.  The
    result is the index and the way set in the chosen object. *)
Record bb_acc := { ba_crit : Q; ba_which : option nat; ba_way : Z }.
(** CbcBranchStrongDecision.cpp:180-450: one candidate. *)
Definition bb_step (acc : bb_acc) (ic : nat * scand) : bb_acc :=
  let '(i, c) := ic in
  let betterWay := if Qle_bool (sc_up c) (sc_dn c) then (if Qltb (ba_crit acc) (sc_up c) then 1 else 0)%Z
                   else (if Qltb (ba_crit acc) (sc_dn c) then -1 else 0)%Z in
  if Z.eqb betterWay 0 then acc
  else {| ba_crit := Qmn (sc_up c) (sc_dn c); ba_which := Some i; ba_way := betterWay |}.
(** CbcBranchStrongDecision.cpp:180-450. *)
Definition bestBranch (cs : list scand) : option (nat * Z) :=
  let acc := fold_left bb_step (combine (seq 0 (length cs)) cs) {| ba_crit := - inject_Z (10 ^ 50); ba_which := None; ba_way := 0 |} in
  match ba_which acc with
  | None => None
  | Some i => let pref := match nth_error cs i with Some c => sc_pref c | None => 0%Z end in
              Some (i, if Z.eqb pref 0 then ba_way acc else pref)
  end.

(** betterBranch, lines 92-160.  The decision object between calls: [bd_best]: bestObject_ is set. *)
Record bdec := { bd_best : bool; bd_crit : Q; bd_up : Q; bd_nup : Z; bd_dn : Q; bd_ndn : Z }.
(** CoinFinite.hpp (external): the largest int. *)
Definition COIN_INT_MAX : Z := 2147483647.
(** CbcBranchStrongDecision.cpp:92-160. *)
Definition betterBranch (beforeSolution : bool) (s : bdec) (c : scand) : bdec * Z :=
  let s1 := if bd_best s then s
            else if beforeSolution then {| bd_best := false; bd_crit := bd_crit s; bd_up := bd_up s; bd_nup := COIN_INT_MAX; bd_dn := bd_dn s; bd_ndn := COIN_INT_MAX |}
            else {| bd_best := false; bd_crit := -(1); bd_up := bd_up s; bd_nup := bd_nup s; bd_dn := bd_dn s; bd_ndn := bd_ndn s |} in
  let betterWay :=
    if beforeSolution then
      let bestNumber := Z.min (bd_nup s1) (bd_ndn s1) in
      if (sc_nup c <? sc_ndn c)%Z then
        (if (sc_nup c <? bestNumber)%Z then 1
         else if (sc_nup c =? bestNumber)%Z then (if Qltb (sc_up c) (bd_crit s1) then 1 else 0) else 0)%Z
      else if (sc_ndn c <? sc_nup c)%Z then
        (if (sc_ndn c <? bestNumber)%Z then -1
         else if (sc_ndn c =? bestNumber)%Z then (if Qltb (sc_dn c) (bd_crit s1) then -1 else 0) else 0)%Z
      else
        let better := (sc_nup c <? bestNumber)%Z || ((sc_nup c =? bestNumber)%Z && Qltb (Qmn (sc_up c) (sc_dn c)) (bd_crit s1)) in
        if better then (if Qle_bool (sc_up c) (sc_dn c) then 1 else -1)%Z else 0%Z
    else if Qle_bool (sc_up c) (sc_dn c) then (if Qltb (bd_crit s1) (sc_up c) then 1 else 0)%Z
    else (if Qltb (bd_crit s1) (sc_dn c) then -1 else 0)%Z in
  if Z.eqb betterWay 0 then (s1, 0%Z)
  else ({| bd_best := true; bd_crit := Qmn (sc_up c) (sc_dn c); bd_up := sc_up c; bd_nup := sc_nup c; bd_dn := sc_dn c; bd_ndn := sc_ndn c |},
        if Z.eqb (sc_pref c) 0 then betterWay else sc_pref c).

(** ** OsiChooseStrongCustom.cpp. *)
(** calculateValue, lines 464-495; OsiChooseStrongCustom.hpp:190: SAVED_MAXMIN_CRITERION_ = 0.85. *)
Definition SAVED_MAXMIN_CRITERION : Q := 85 # 100.
(** OsiChooseStrongCustom.cpp:464-495. *)
Definition calculateValue (chosen_method : Z) (variable_index : nat) (downEstimate upEstimate : Q) (whichCriterion : bool) : Q :=
  if (chosen_method =? 6)%Z then - inject_Z (Z.of_nat variable_index)
  else
    let mult := if (chosen_method <? 0)%Z then -(1) else 1 in
    let method := if (chosen_method <? 0)%Z then (- (chosen_method + 1))%Z else chosen_method in
    let mm := if (method =? 2)%Z || (method =? 4)%Z then 1 else if (method =? 5)%Z then 0 else SAVED_MAXMIN_CRITERION in
    let mm := if whichCriterion then 1 - mm else mm in
    mult * (mm * Qmn upEstimate downEstimate + (1 - mm) * Qmx upEstimate downEstimate).

(** An evaluated object: its index, column, estimates, and preferred way ([None] : none, or no
    infeasibility; lines 519-521). *)
Record eobj := { eo_index : nat; eo_col : nat; eo_down : Q; eo_up : Q; eo_pref : option Z }.
(** A chosen object and its criteria; [None] for the criteria : -COIN_DBL_MAX (simplification: computed
    values are above it). *)
Record slot := { sl_index : option nat; sl_way : Z; sl_crit : option (Q * Q) }.
(** The best and second-best members of OsiChooseStrongCustom with their criteria (lines 497-562). *)
Record chooser := { ch_best : slot; ch_second : slot }.
(** OsiChooseStrongCustom.cpp:508 and 538: the first criterion is better. *)
Definition above_crit (v : Q) (c : option (Q * Q)) : bool := match c with None => true | Some (f, _) => Qltb f v end.
(** OsiChooseStrongCustom.cpp:523-524 and 549-550: the first criterion ties and the second is better. *)
Definition ties_above (f s : Q) (c : option (Q * Q)) : bool := match c with None => false | Some (f', s') => Qeq_bool f f' && Qltb s' s end.
(** processObject, lines 497-562: new state and whether the return code becomes 2. *)
Definition processObject (method : Z) (ch : chooser) (o : eobj) : chooser * bool :=
  let f := calculateValue method (eo_col o) (eo_down o) (eo_up o) false in
  let s := calculateValue method (eo_col o) (eo_down o) (eo_up o) true in
  let way := match eo_pref o with Some w => w | None => if Qltb (eo_down o) (eo_up o) then 0%Z else 1%Z end in
  let me := {| sl_index := Some (eo_index o); sl_way := way; sl_crit := Some (f, s) |} in
  let ties c := negb (method =? 0)%Z && ties_above f s c in
  if above_crit f (sl_crit (ch_best ch)) || ties (sl_crit (ch_best ch)) then ({| ch_best := me; ch_second := ch_best ch |}, true)
  else if above_crit f (sl_crit (ch_second ch)) || ties (sl_crit (ch_second ch)) then ({| ch_best := ch_best ch; ch_second := me |}, true)
  else (ch, false).

(** Strong branching on one object: statuses and changes (OsiHotInfo::updateInformation, external).
    [inf]: status 1 (infeasible or above cutoff). *)
Record sbres := { sr_obj : eobj; sr_down_inf : bool; sr_up_inf : bool }.
(** doStrongBranching, lines 34-165, with returnCriterion = 1 (the only call): return code, how many results,
    and the object and way it stores in bestObjectIndex_, bestWhichWay_.  Branch 0 is the first branch tried
    (status0); here the down branch, as for integer objects whose whichWay is 0. [tmax i]: time is up
    after object i. *)
Fixpoint doStrongBranching (tmax : nat -> bool) (i : nat) (todo : list sbres) : Z * list sbres * option (nat * Z) :=
  match todo with
  | [] => (0%Z, [], None)
  | r :: l =>
      if sr_down_inf r && sr_up_inf r then ((-1)%Z, [r], Some (eo_index (sr_obj r), (-1)%Z))
      else if sr_down_inf r || sr_up_inf r then (2%Z, [r], Some (eo_index (sr_obj r), if sr_down_inf r then 0%Z else 1%Z))
      else if tmax i then (3%Z, [r], None)
      else let '(code, done, b) := doStrongBranching tmax (S i) l in (code, r :: done, b)
  end.

(** An entry of list_: trusted pseudo-costs give estimates at once, the others are branched on. *)
(** OsiChooseStrongCustom.cpp:684-702. *)
Inductive entry := Trusted (o : eobj) | ToBranch (r : sbres).
(** The object index of an entry of list_. *)
Definition entry_index (e : entry) : nat := match e with Trusted o => eo_index o | ToBranch r => eo_index (sr_obj r) end.
(** The estimate used for a side found infeasible, lines 723-728, 746-750. *)
Definition expensive (cutoff : option Q) (objval : Q) : Q :=
  match cutoff with Some c => 2 * (c - objval) | None => 2 * Qabs objval end.
(** OsiChooseStrongCustom.cpp:716-757: the estimates used for an object that was branched on. *)
Definition estimated (cutoff : option Q) (objval : Q) (r : sbres) : eobj :=
  {| eo_index := eo_index (sr_obj r); eo_col := eo_col (sr_obj r);
     eo_down := if sr_down_inf r then expensive cutoff objval else eo_down (sr_obj r);
     eo_up := if sr_up_inf r then expensive cutoff objval else eo_up (sr_obj r); eo_pref := eo_pref (sr_obj r) |}.
(** firstForcedObjectIndex_, firstForcedWhichWay_ after the loop over the results, lines 729-732, 751-754. *)
Fixpoint first_forced (done : list sbres) : option (nat * Z) :=
  match done with
  | [] => None
  | r :: l => if sr_up_inf r then Some (eo_index (sr_obj r), 0%Z) else if sr_down_inf r then Some (eo_index (sr_obj r), 1%Z) else first_forced l
  end.
(** OsiChooseStrongCustom.cpp:676-683: nothing chosen yet. *)
Definition no_slot : slot := {| sl_index := None; sl_way := -1; sl_crit := None |}.
(** chooseVariable, lines 664-795, methods other than 7.  [entries] : list_[0 .. numberUnsatisfied_);
    [numberLeft] = min(numberStrong_ - numberStrongDone_, numberUnsatisfied_) (non-negative);
    [old_second] : secondBestObjectIndex_, secondBestWhichWay_ left by earlier calls.  Result: return code,
    chosen index and way ([None] = -1), and the second-best left for the next call.  Fixing variables
    (fixVariables) is not modelled, the forced object separately in [first_forced]. *)
Definition chooseVariable (method : Z) (tmax : nat -> bool) (cutoff : option Q) (objval : Q)
    (entries : list entry) (numberLeft numberOnList : nat) (old_second : option nat * Z)
  : Z * option nat * Z * (option nat * Z) :=
  match entries with
  | [] => (1%Z, None, (-1)%Z, old_second)
  | first :: _ =>
      let cand := firstn numberLeft entries in
      let trusted := flat_map (fun e => match e with Trusted o => [o] | ToBranch _ => [] end) cand in
      let todo := flat_map (fun e => match e with Trusted _ => [] | ToBranch r => [r] end) cand in
      let init := {| ch_best := no_slot; ch_second := {| sl_index := fst old_second; sl_way := snd old_second; sl_crit := None |} |} in
      let ch1 := fold_left (fun ch o => fst (processObject method ch o)) trusted init in
      let pick_first ch :=
        {| ch_best := {| sl_index := Some (entry_index first); sl_way := 0; sl_crit := sl_crit (ch_best ch) |};
           ch_second := if Nat.ltb 1 numberOnList
                        then {| sl_index := option_map entry_index (nth_error entries 1); sl_way := 0; sl_crit := sl_crit (ch_second ch) |}
                        else ch_second ch |} in
      let '(code, ch2, fixed) :=
        match todo with
        | [] => (0%Z, pick_first ch1, O)
        | _ =>
            let '(code, done, forced) := doStrongBranching tmax 0 todo in
            let ch1' := match forced with
                        | Some (i, w) => {| ch_best := {| sl_index := Some i; sl_way := w; sl_crit := sl_crit (ch_best ch1) |}; ch_second := ch_second ch1 |}
                        | None => ch1
                        end in
            if ((0 <=? code) && (code <=? 2))%Z then
              let code1 := if (code =? 0)%Z then 0%Z else match sl_index (ch_best ch1') with Some _ => 3%Z | None => 4%Z end in
              let '(ch, code2) := fold_left (fun acc r => let '(ch, b) := processObject method (fst acc) (estimated cutoff objval r) in
                                                (ch, if b && negb (snd acc =? 0)%Z then 2%Z else snd acc)) done (ch1', code1) in
              (code2, ch, length (filter (fun r => sr_down_inf r || sr_up_inf r) done))
            else if (code =? 3)%Z then (0%Z, pick_first ch1', O)
            else (code, ch1', O)
        end in
      let m := if (method <? 0)%Z then (- (method + 1))%Z else method in
      let useSecondBest := ((m =? 3) || (m =? 4))%Z in
      let chosen := if useSecondBest then match sl_index (ch_second ch2) with Some _ => ch_second ch2 | None => ch_best ch2 end else ch_best ch2 in
      let way := if (method =? 6)%Z then 0%Z else sl_way chosen in
      let code := if Nat.eqb fixed (length entries) && negb (Nat.eqb fixed 0) then 4%Z else code in
      (code, sl_index chosen, way, (sl_index (ch_second ch2), sl_way (ch_second ch2)))
  end.

(** ** Method 7: the objects in order. *)
(** OsiChooseStrongCustom.cpp:582-630: what the call leaves: the code, bestObjectIndex_ ([None] = -1), bestWhichWay_,
    whether saveSolution was called, and info->solution_. *)
Record seven := { sv_code : Z; sv_index : option nat; sv_way : Z; sv_saved : bool; sv_sol : nat -> Q }.
(** OsiChooseStrongCustom.cpp:608-613: the value given to the branching object. *)
Definition move_inside (lb ub val : Q) : Q :=
  if Qle_bool (ub - (1 # 1000)) val then val - (ub - lb) / 2
  else if Qle_bool val (lb + (1 # 1000)) then val + (ub - lb) / 2 else val.
(** OsiChooseStrongCustom.cpp:599-620: the loop over the objects; [rest] : their columns, the first being object [i]. *)
Fixpoint first_unfixed (lower upper : nat -> Q) (i : nat) (rest : list nat) : option (nat * nat) :=
  match rest with
  | [] => None
  | var :: r => if Qltb (lower var) (upper var) then Some (i, var) else first_unfixed lower upper (S i) r
  end.
(** OsiChooseStrongCustom.cpp:582-630 [chooseVariable] for method 7; [None]: an assertion fails.  [optimal],
    [infeasible]: isProvenOptimal, isProvenPrimalInfeasible of the re-solved clone; [feasible]: feasibleSolution
    (external) on the solver's own solution; [cols]: columnNumber of each object; [lower], [upper], [sol], [depth] :
    the members of info.  integerTolerance_ := -1 is not modelled. *)
Definition chooseVariable7 (optimal infeasible feasible : bool) (depth : nat) (cols : list nat) (lower upper sol : nat -> Q) : option seven :=
  let code := if negb optimal then (-1)%Z else 0%Z in
  if feasible then Some {| sv_code := 1; sv_index := None; sv_way := -1; sv_saved := true; sv_sol := sol |}
  else if (code =? 0)%Z && Nat.ltb depth (length cols) then
    match first_unfixed lower upper depth (skipn depth cols) with
    | Some (i, var) => Some {| sv_code := code; sv_index := Some i; sv_way := 0; sv_saved := false;
                               sv_sol := fun j => if Nat.eqb j var then move_inside (lower var) (upper var) (sol var) else sol j |}
    | None => None
    end
  else if infeasible then Some {| sv_code := code; sv_index := None; sv_way := -1; sv_saved := false; sv_sol := sol |} else None.
