(** Disjunctions: include/common/Disjunction.hpp, src/disjunction/Disjunction.cpp,
    src/disjunction/SplitDisjunction.cpp, and the code of src/cut/CglVPC.cpp that turns a disjunction
    into solvers.  Solver answers (external) are arguments. *)
From Verif Require Export Prelude Model.Tolerance Model.LP.

(** One entry of the parallel arrays changed_var / changed_bound / changed_value
    (include/common/Disjunction.hpp:39-41, 91-95): bound <= 0 is the lower, otherwise the upper bound. *)
Record bchange := { bc_var : nat; bc_bound : Z; bc_val : Q }.

(** DisjunctiveTerm, include/common/Disjunction.hpp:36-47; the warm-start basis is left out (it is only
    handed back to the solver), an infinite saved objective is [None]. *)
Record termdata := { td_obj : option Q; td_changes : list bchange; td_feasible : bool; td_ineqs : list row }.

(** Disjunction, include/common/Disjunction.hpp:71-105.  [None] is +-infinity (DBL_MAX / lowest).
    [d_var] is SplitDisjunction::var (None = -1 = not chosen; unused by other classes). *)
Record disj := { d_terms : list termdata; d_num_terms : nat; d_id : Z;
                 d_best : option Q; d_worst : option Q; d_iobj : option Q; d_isol : option (nat -> Q);
                 d_common : list bchange; d_common_ineqs : list row; d_root : option Q;
                 d_var : option nat }.

(** Disjunction::setupAsNew, Disjunction.cpp:117-134. *)
Definition disj_new : disj :=
  {| d_terms := []; d_num_terms := 0; d_id := -1; d_best := None; d_worst := None; d_iobj := None;
     d_isol := None; d_common := []; d_common_ineqs := []; d_root := None; d_var := None |}.

(** setColLower / setColUpper overwrite the bound (Osi); Disjunction.cpp:157-166, 172-181,
    CglVPC.cpp:880-884, 1104-1108. *)
Definition set_bound (P : lp) (c : bchange) : lp :=
  if (bc_bound c <=? 0)%Z
  then {| ncols := ncols P; nrows := nrows P;
          clo := fun j => if Nat.eqb j (bc_var c) then Some (bc_val c) else clo P j;
          cup := cup P; rows := rows P; obj := obj P |}
  else {| ncols := ncols P; nrows := nrows P; clo := clo P;
          cup := fun j => if Nat.eqb j (bc_var c) then Some (bc_val c) else cup P j;
          rows := rows P; obj := obj P |}.

(** addRow / applyRowCuts append one row (Osi). *)
Definition add_row_lp (P : lp) (r : row) : lp :=
  {| ncols := ncols P; nrows := S (nrows P); clo := clo P; cup := cup P;
     rows := fun i => if Nat.eqb i (nrows P) then r else rows P i; obj := obj P |}.

(** The row added for a bound change: coeff * x >= coeff * val, Disjunction.cpp:155-156, 167. *)
Definition change_row (c : bchange) : row :=
  let coeff := if (bc_bound c <=? 0)%Z then 1 else -(1) in
  {| rcoef := [(bc_var c, coeff)]; rlo := Some (coeff * bc_val c); rup := None |}.

(** Disjunction.cpp:153-169 and 171-184. *)
Definition apply_change (shouldChangeBounds : bool) (P : lp) (c : bchange) : lp :=
  if shouldChangeBounds then set_bound P c else add_row_lp P (change_row c).

(** The linear program of the solver built by getSolverForTerm, Disjunction.cpp:150-190
    (common changes, then the term's, then the term's inequalities). *)
Definition term_lp (shouldChangeBounds : bool) (P : lp) (d : disj) (t : termdata) : lp :=
  fold_left add_row_lp (td_ineqs t)
    (fold_left (apply_change shouldChangeBounds) (td_changes t)
       (fold_left (apply_change shouldChangeBounds) (d_common d) P)).

(** Result of getSolverForTerm: end of the program, no solver (nullptr), or a solver. *)
(** Disjunction.cpp:138-258. *)
Inductive tsresult := TSexit | TSnull | TSsolver (P : lp).

(** Disjunction.cpp:216-223: is the ratio of new and saved objective more than 3% off?  Cases where a
    double division by zero occurs are spelled out ([x/0.] is +-infinity by the sign of [x], 1/(-0.) is
    -infinity); both values zero is impossible here because they differ by DIFFEPS. *)
Definition ratio_bad (newval saved : Q) : bool :=
  if Qeq_bool saved 0 then Qltb 0 newval            (* +inf: bad;  -inf -> 1/-inf = -0: accepted *)
  else if Qeq_bool newval 0 then Qltb 0 saved       (* 0/saved = +-0 -> 1/+-0 = +-inf *)
  else let r := newval / saved in
       greaterThanVal (if Qltb r 1 then 1 / r else r) (103 # 100) EPS7.

(** getSolverForTerm, Disjunction.cpp:138-258.  [warm] = warm start accepted (or none given),
    [optimal] = checkSolverOptimality, [obj1] / [obj2] = objective after the first / second resolve. *)
Definition getSolverForTerm (scb : bool) (DIFFEPS : Q) (P : lp) (d : disj) (t : termdata)
    (warm optimal : bool) (obj1 obj2 : Q) : tsresult :=
  if negb warm then TSexit
  else if negb optimal then TSnull
  else match td_obj t with
       | None => TSsolver (term_lp scb P d t)
       | Some saved =>
           let now := if isVal obj1 saved DIFFEPS then obj1 else obj2 in
           if isVal now saved DIFFEPS then TSsolver (term_lp scb P d t)
           else if ratio_bad now saved then TSexit else TSsolver (term_lp scb P d t)
       end.

(** CglVPC::initializeSolverWithRootChanges, CglVPC.cpp:876-908: the root problem after the common
    changes, and the one-sided cuts announced for them.  Simplifications: the cut-limit exits (lines
    877-880, 900-903) are in Model.Generate; addCut is called with the cut as given. *)
Definition root_lp (P : lp) (d : disj) : lp :=
  fold_left add_row_lp (d_common_ineqs d) (fold_left set_bound (d_common d) P).
(** CglVPC.cpp:876-908: the rows announced as one-sided cuts. *)
Definition one_sided_cuts (d : disj) : list row := map change_row (d_common d) ++ d_common_ineqs d.

(** CglVPC::setupConstraints, CglVPC.cpp:1090-1116: a term's problem from the root problem. *)
Definition setup_term_lp (R : lp) (t : termdata) : lp :=
  fold_left add_row_lp (td_ineqs t) (fold_left set_bound (td_changes t) R).

(** Disjunction::updateObjValue, Disjunction.cpp:358-365. *)
Definition omin (b : option Q) (v : Q) : option Q :=
  match b with None => Some v | Some q => if Qltb v q then Some v else Some q end.
(** Disjunction.cpp:358-365: the maximum, with no value at the start. *)
Definition omax (b : option Q) (v : Q) : option Q :=
  match b with None => Some v | Some q => if Qltb q v then Some v else Some q end.
(** Disjunction.cpp:358-365. *)
Definition updateObjValue (d : disj) (v : Q) : disj :=
  {| d_terms := d_terms d; d_num_terms := d_num_terms d; d_id := d_id d;
     d_best := omin (d_best d) v; d_worst := omax (d_worst d) v; d_iobj := d_iobj d; d_isol := d_isol d;
     d_common := d_common d; d_common_ineqs := d_common_ineqs d; d_root := d_root d; d_var := d_var d |}.

(** ** DisjunctionSet *)
(** include/common/Disjunction.hpp:162-180. *)
Record dset := { ds_disjs : list disj; ds_best : option Q; ds_best_i : Z; ds_worst : option Q; ds_worst_i : Z;
                 ds_iobj : option Q; ds_iobj_i : Z; ds_isol : option (nat -> Q) }.
(** DisjunctionSet::setupAsNew, Disjunction.cpp:428-437. *)
Definition dset_new : dset :=
  {| ds_disjs := []; ds_best := None; ds_best_i := -1; ds_worst := None; ds_worst_i := -1;
     ds_iobj := None; ds_iobj_i := -1; ds_isol := None |}.

(** [a < b] on objective values where [None] in [d_best] etc. is DBL_MAX (largest). *)
(** Disjunction.cpp:358-365 and 459-477. *)
Definition olt (a b : option Q) : bool :=
  match a, b with Some x, Some y => Qltb x y | Some _, None => true | None, _ => false end.
(** [a > b] where [None] is lowest(). *)
(** Disjunction.cpp:358-365 and 459-477. *)
Definition ogt (a b : option Q) : bool :=
  match a, b with Some x, Some y => Qltb y x | Some _, None => true | None, _ => false end.

(** DisjunctionSet::updateObjValue, Disjunction.cpp:459-477; [None] = the assert on line 460 fails. *)
Definition ds_updateObjValue (s : dset) (d : disj) (disj_ind : Z) : option dset :=
  if negb ((d_id d <? 0)%Z || (disj_ind <? 0)%Z || Z.eqb (d_id d) disj_ind) then None
  else
    let i := if (0 <=? disj_ind)%Z then disj_ind else d_id d in
    let lt := olt (d_best d) (ds_best s) in
    let gt := ogt (d_worst d) (ds_worst s) in
    let ilt := olt (d_iobj d) (ds_iobj s) in
    Some {| ds_disjs := ds_disjs s;
            ds_best := if lt then d_best d else ds_best s; ds_best_i := if lt then i else ds_best_i s;
            ds_worst := if gt then d_worst d else ds_worst s; ds_worst_i := if gt then i else ds_worst_i s;
            ds_iobj := if ilt then d_iobj d else ds_iobj s; ds_iobj_i := if ilt then i else ds_iobj_i s;
            ds_isol := if ilt then match d_isol d with Some x => Some x | None => ds_isol s end else ds_isol s |}.

(** SplitDisjunction.cpp:471-482: the id is assigned (record update). *)
Definition with_id (d : disj) (i : Z) : disj :=
  {| d_terms := d_terms d; d_num_terms := d_num_terms d; d_id := i; d_best := d_best d; d_worst := d_worst d;
     d_iobj := d_iobj d; d_isol := d_isol d; d_common := d_common d; d_common_ineqs := d_common_ineqs d;
     d_root := d_root d; d_var := d_var d |}.
(** DisjunctionSet::addDisjunction, include/common/Disjunction.hpp:198-202: a copy with id = position. *)
Definition addDisjunction (s : dset) (d : disj) : option dset :=
  let d' := with_id d (Z.of_nat (length (ds_disjs s))) in
  ds_updateObjValue {| ds_disjs := ds_disjs s ++ [d']; ds_best := ds_best s; ds_best_i := ds_best_i s;
                       ds_worst := ds_worst s; ds_worst_i := ds_worst_i s; ds_iobj := ds_iobj s;
                       ds_iobj_i := ds_iobj_i s; ds_isol := ds_isol s |} d' (-1).

(** getDisjunction / getDisjunctionById, include/common/Disjunction.hpp:210-222 ([None] = NULL;
    a negative [ind], which would index before the array, is outside the model). *)
Definition getDisjunction (s : dset) (ind : nat) : option disj := nth_error (ds_disjs s) ind.
(** include/common/Disjunction.hpp:215-222. *)
Definition getDisjunctionById (s : dset) (i : Z) : option disj :=
  find (fun d => Z.eqb (d_id d) i) (ds_disjs s).

(** ** SplitDisjunction *)
(** Answer of the solver on one side of a split (SplitDisjunction.cpp:213-225, 233-245). *)
Inductive branchans := BOptimal (objval : Q) | BInfeasible | BOther.

(** SplitDisjunction.cpp:105-160: the member var is assigned (record update). *)
Definition with_var (d : disj) (v : option nat) : disj :=
  {| d_terms := d_terms d; d_num_terms := d_num_terms d; d_id := d_id d; d_best := d_best d; d_worst := d_worst d;
     d_iobj := d_iobj d; d_isol := d_isol d; d_common := d_common d; d_common_ineqs := d_common_ineqs d;
     d_root := d_root d; d_var := v |}.

(** addTerm, SplitDisjunction.cpp:302-314 (branching_way 1 = upper bound). *)
Definition sd_addTerm (d : disj) (col : nat) (way : Z) (val : Q) (objval : Q) : disj :=
  {| d_terms := d_terms d ++ [{| td_obj := Some objval; td_changes := [{| bc_var := col; bc_bound := way; bc_val := val |}];
                                 td_feasible := true; td_ineqs := [] |}];
     d_num_terms := S (d_num_terms d); d_id := d_id d; d_best := d_best d; d_worst := d_worst d; d_iobj := d_iobj d;
     d_isol := d_isol d; d_common := d_common d; d_common_ineqs := d_common_ineqs d; d_root := d_root d; d_var := d_var d |}.

(** SplitDisjunction.cpp:262-273: drop the last term, remember the bound change. *)
Definition sd_fix (d : disj) (c : bchange) : disj :=
  {| d_terms := firstn (d_num_terms d - 1) (d_terms d); d_num_terms := d_num_terms d - 1; d_id := d_id d;
     d_best := d_best d; d_worst := d_worst d; d_iobj := d_iobj d; d_isol := d_isol d;
     d_common := d_common d ++ [c]; d_common_ineqs := d_common_ineqs d; d_root := d_root d; d_var := d_var d |}.

(** checkVar, SplitDisjunction.cpp:188-279.  [isint], [x]: integrality and current solution; [ans col up]:
    the solver's answer on that side.  [None] = exit(1); otherwise the returned flag and the new state.
    ([resize(num_terms - 1)] is [firstn]: the arrays have num_terms entries.) *)
Definition checkVar (AWAY : Q) (isint : nat -> bool) (x : nat -> Q) (ans : nat -> bool -> branchans)
    (s : disj) (col : nat) : option (bool * disj) :=
  let val := x col in
  let fl := inject_Z (Qfloor val) in
  let ce := inject_Z (Qceiling val) in
  if negb (isint col) then None
  else if isVal val fl AWAY || isVal val ce AWAY then None
  else
    match ans col false, ans col true with
    | BOther, _ => None
    | _, BOther => None
    | BInfeasible, BInfeasible => None
    | BOptimal o1, BOptimal o2 =>
        Some (true, with_var (sd_addTerm (sd_addTerm s col 1 fl o1) col 0 ce o2) (Some col))
    | BInfeasible, BOptimal o2 =>
        Some (false, sd_fix (sd_addTerm s col 0 ce o2) {| bc_var := col; bc_bound := 0; bc_val := ce |})
    | BOptimal o1, BInfeasible =>
        Some (false, sd_fix (sd_addTerm s col 1 fl o1) {| bc_var := col; bc_bound := 1; bc_val := fl |})
    end.

(** SplitDisjunction.cpp:121-133: fractional integer columns. *)
Definition fracPart (v : Q) : Q :=
  let a := v - inject_Z (Qfloor v) in let b := inject_Z (Qceiling v) - v in if Qltb b a then b else a.
(** SplitDisjunction.cpp:121-133. *)
Definition split_candidates (AWAY : Q) (isint : nat -> bool) (x : nat -> Q) (n : nat) : list nat :=
  filter (fun c => isint c && negb (isVal (fracPart (x c)) 0 AWAY)) (seq 0 n).

(** The exit reasons of SplitDisjunction::prepareDisjunction, SplitDisjunction.cpp:74-170. *)
Inductive dexit := DSuccess | DNoDisjunction | DUnknown.

(** SplitDisjunction.cpp:152-161: try candidates in the given order until one has two feasible sides. *)
Fixpoint split_loop (AWAY : Q) (isint : nat -> bool) (x : nat -> Q) (ans : nat -> bool -> branchans)
    (order : list nat) (s : disj) : option (dexit * disj) :=
  match order with
  | [] => Some (DUnknown, s)
  | c :: r =>
      match checkVar AWAY isint x ans s c with
      | None => None
      | Some (true, s') => Some (DSuccess, s')
      | Some (false, s') => split_loop AWAY isint x ans r s'
      end
  end.

(** prepareDisjunction, SplitDisjunction.cpp:74-170, without timers, cloning and the name.  [order]: the
    candidates in the order std::sort put them. *)
Definition split_prepare (AWAY : Q) (isint : nat -> bool) (x : nat -> Q) (ans : nat -> bool -> branchans)
    (order : list nat) (s : disj) : option (dexit * disj) :=
  match d_var s with
  | Some v =>
      match checkVar AWAY isint x ans s v with
      | None => None
      | Some (b, s') => Some (if b then DSuccess else DNoDisjunction, s')
      end
  | None =>
      match order with
      | [] => Some (DNoDisjunction, s)
      | _ => split_loop AWAY isint x ans order s
      end
  end.

(** ** generateSplitDisjunctions, SplitDisjunction.cpp:316-489 *)
(** Lines 359-455: variables with both sides feasible, with min(down, up) bound; [None] = exit(1). *)
Fixpoint split_select (AWAY : Q) (isint : nat -> bool) (x : nat -> Q) (ans : nat -> bool -> branchans)
    (cands : list nat) : option (list (nat * Q)) :=
  match cands with
  | [] => Some []
  | v :: r =>
      let fl := inject_Z (Qfloor (x v)) in
      let ce := inject_Z (Qceiling (x v)) in
      if negb (isint v) then None
      else if isVal (x v) fl AWAY || isVal (x v) ce AWAY then None
      else
        match ans v false, ans v true with
        | BOther, _ | _, BOther => None
        | BInfeasible, BInfeasible => None
        | BOptimal a, BOptimal b =>
            option_map (cons (v, if Qltb b a then b else a)) (split_select AWAY isint x ans r)
        | _, _ => split_select AWAY isint x ans r
        end
  end.

(** Lines 471-482 for one selected variable: a fresh SplitDisjunction with [var] set, prepared if asked,
    copied into the set. *)
Definition split_add_one (AWAY : Q) (isint : nat -> bool) (x : nat -> Q) (ans : nat -> bool -> branchans)
    (prep : bool) (s : dset) (v : nat) : option dset :=
  let d0 := with_var disj_new (Some v) in
  match (if prep then option_map snd (split_prepare AWAY isint x ans [] d0) else Some d0) with
  | None => None
  | Some d => addDisjunction s d
  end.
(** SplitDisjunction.cpp:471-482: the loop over the selected variables. *)
Fixpoint split_add (AWAY : Q) (isint : nat -> bool) (x : nat -> Q) (ans : nat -> bool -> branchans)
    (prep : bool) (s : dset) (vs : list nat) : option dset :=
  match vs with
  | [] => Some s
  | v :: r => match split_add_one AWAY isint x ans prep s v with
              | None => None | Some s' => split_add AWAY isint x ans prep s' r end
  end.

(** The whole function; [cands] = si->getFractionalIndices(AWAY); [order]: the selected variables in
    the order std::sort put them.  Result: the set and the returned count. *)
(** SplitDisjunction.cpp:316-489. *)
Definition generateSplitDisjunctions (AWAY : Q) (isint : nat -> bool) (x : nat -> Q)
    (ans : nat -> bool -> branchans) (DISJ_TERMS : Z) (prep : bool) (cands : list nat)
    (order : list (nat * Q) -> list (nat * Q)) (s : dset) : option (dset * nat) :=
  match cands with
  | [] => Some (s, O)
  | _ =>
      match split_select AWAY isint x ans cands with
      | None => None
      | Some sel =>
          let chosen := firstn (Z.to_nat DISJ_TERMS) (map fst (order sel)) in
          match split_add AWAY isint x ans prep s chosen with
          | None => None
          | Some s' => Some (s', length chosen)
          end
      end
  end.

(** ** DisjunctionSet::prepareDisjunction, Disjunction.cpp:440-457.  [prep i d]: what preparing the [i]-th
    disjunction does (result flag [true] = OPTIMAL_SOLUTION_FOUND_EXIT, which stops the loop).  [None] =
    the assertion on line 447 (or that of updateObjValue) fails.  Result: exit flag of the last
    disjunction prepared ([None]: no disjunction, reason UNKNOWN), and the set. *)
Fixpoint ds_prepare_loop (prep : nat -> disj -> bool * disj) (i : nat) (done todo : list disj)
    (last : option bool) (s : dset) : option (option bool * dset) :=
  let put l := {| ds_disjs := l; ds_best := ds_best s; ds_best_i := ds_best_i s; ds_worst := ds_worst s;
                  ds_worst_i := ds_worst_i s; ds_iobj := ds_iobj s; ds_iobj_i := ds_iobj_i s; ds_isol := ds_isol s |} in
  match todo with
  | [] => Some (last, put done)
  | d :: r =>
      if negb ((d_id d <? 0)%Z || Z.eqb (d_id d) (Z.of_nat i)) then None
      else
        let (stop, d') := prep i d in
        match ds_updateObjValue s d' (Z.of_nat i) with
        | None => None
        | Some s' =>
            if stop then Some (Some true, {| ds_disjs := done ++ d' :: r; ds_best := ds_best s'; ds_best_i := ds_best_i s';
                          ds_worst := ds_worst s'; ds_worst_i := ds_worst_i s'; ds_iobj := ds_iobj s';
                          ds_iobj_i := ds_iobj_i s'; ds_isol := ds_isol s' |})
            else ds_prepare_loop prep (S i) (done ++ [d']) r (Some false) s'
        end
  end.
(** Disjunction.cpp:440-457. *)
Definition ds_prepare (prep : nat -> disj -> bool * disj) (s : dset) : option (option bool * dset) :=
  ds_prepare_loop prep 0 [] (ds_disjs s) None s.
