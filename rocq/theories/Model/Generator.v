(** The bookkeeping of cut generation: CglVPC::addCut, setupAsNew, the cut and failure limits
    (src/cut/CglVPC.cpp) and PRLP::genCut / genCutHelper / exitGenCut (src/cut/PRLP.cpp). *)
From Verif Require Export Prelude Model.Tolerance Model.LP Model.CutHelper.

(** include/CglVPC.hpp:70-76 [CutType]. *)
Inductive cuttype := ONE_SIDED_CUT | OPTIMALITY_CUT | VPC | GMIC.
(** Comparison == of CutType values (CglVPC.hpp:70-76). *)
Definition cuttype_eqb (a b : cuttype) : bool :=
  match a, b with
  | ONE_SIDED_CUT, ONE_SIDED_CUT | OPTIMALITY_CUT, OPTIMALITY_CUT | VPC, VPC | GMIC, GMIC => true
  | _, _ => false end.

(** include/CglVPC.hpp:79-94 [ObjectiveType]. *)
Inductive objtype :=
  DUMMY_OBJ | ALL_ONES | CUT_VERTICES | ITER_BILINEAR | UNIT_VECTORS | DISJ_LB | TIGHT_POINTS
| TIGHT_RAYS | TIGHT_POINTS2 | TIGHT_RAYS2 | USER | OBJ_CUT | ONE_SIDED.
(** static_cast<int> of an ObjectiveType (CglVPC.hpp:79-94). *)
Definition objtype_idx (o : objtype) : nat :=
  match o with
  | DUMMY_OBJ => 0 | ALL_ONES => 1 | CUT_VERTICES => 2 | ITER_BILINEAR => 3 | UNIT_VECTORS => 4
  | DISJ_LB => 5 | TIGHT_POINTS => 6 | TIGHT_RAYS => 7 | TIGHT_POINTS2 => 8 | TIGHT_RAYS2 => 9
  | USER => 10 | OBJ_CUT => 11 | ONE_SIDED => 12 end%nat.
(** Comparison == of ObjectiveType values (CglVPC.hpp:79-94). *)
Definition objtype_eqb (a b : objtype) : bool := Nat.eqb (objtype_idx a) (objtype_idx b).

(** include/CglVPC.hpp:97-118 [FailureType], as the numbers the C++ code uses. *)
Definition F_ABANDONED := 0%nat.           Definition F_BAD_DYNAMISM := 1%nat.
(** BAD_SUPPORT, BAD_VIOLATION (CglVPC.hpp:97-118). *)
Definition F_BAD_SUPPORT := 2%nat.         Definition F_BAD_VIOLATION := 3%nat.
(** CUT_LIMIT, DUAL_INFEASIBLE (CglVPC.hpp:97-118). *)
Definition F_CUT_LIMIT := 4%nat.           Definition F_DUAL_INFEASIBLE := 5%nat.
(** DUPLICATE_SIC, DUPLICATE_VPC (CglVPC.hpp:97-118). *)
Definition F_DUPLICATE_SIC := 6%nat.       Definition F_DUPLICATE_VPC := 7%nat.
(** ITERATION_LIMIT, ORTHOGONALITY_SIC (CglVPC.hpp:97-118). *)
Definition F_ITERATION_LIMIT := 8%nat.     Definition F_ORTHOGONALITY_SIC := 9%nat.
(** ORTHOGONALITY_VPC, PRIMAL_INFEASIBLE (CglVPC.hpp:97-118). *)
Definition F_ORTHOGONALITY_VPC := 10%nat.  Definition F_PRIMAL_INFEASIBLE := 11%nat.
(** TIME_LIMIT, NUMERICAL_ISSUES_WARNING (CglVPC.hpp:97-118). *)
Definition F_TIME_LIMIT := 12%nat.         Definition F_NUMERICAL_ISSUES_WARNING := 13%nat.
(** DLB_EQUALS_DUB_NO_OBJ, DLB_EQUALS_LPOPT_NO_OBJ (CglVPC.hpp:97-118). *)
Definition F_DLB_EQUALS_DUB_NO_OBJ := 14%nat.  Definition F_DLB_EQUALS_LPOPT_NO_OBJ := 15%nat.
(** PRIMAL_INFEASIBLE_NO_OBJ, NUMERICAL_ISSUES_NO_OBJ (CglVPC.hpp:97-118). *)
Definition F_PRIMAL_INFEASIBLE_NO_OBJ := 16%nat. Definition F_NUMERICAL_ISSUES_NO_OBJ := 17%nat.
(** UNKNOWN and the number of types (CglVPC.hpp:97-118). *)
Definition F_UNKNOWN := 18%nat.            Definition NUM_FAILURE_TYPES := 19%nat.
(** "-1 * (fail index + 1)", PRLP.cpp:575. *)
Definition fcode (f : nat) : Z := (- (Z.of_nat f + 1))%Z.

(** VPCParameters.hpp, enum class VPCMode. *)
(** VPCParameters.hpp:198-204. *)
Inductive vpcmode := PARTIAL_BB | SPLITS | CROSSES | DISJ_SET_PBB | CUSTOM.

(** A cut of the collection with its effectiveness (OsiRowCut). *)
Record ecut := { ec : cut; eff : Q }.

(** The members of CglVPC that cut bookkeeping reads or writes, and the collection [OsiCuts& cuts].
    Simplified: the counter vectors are functions from the enum value (all entries start at 0). *)
Record gstate := {
  g_cuts : list ecut;
  g_type : list cuttype;            (* cutType *)
  g_heur : list objtype;            (* objType *)
  g_disj : list nat;                (* disjID *)
  g_ntype : cuttype -> Z;           (* numCutsOfType *)
  g_nheur : objtype -> Z;           (* numCutsFromHeur *)
  g_nobj : objtype -> Z;            (* numObjFromHeur *)
  g_nfailheur : objtype -> Z;       (* numFailsFromHeur *)
  g_nfails : nat -> Z;              (* numFails *)
  g_num_cuts : nat;
  g_num_obj : nat;                  (* num_obj_tried *)
  g_num_fail : nat;                 (* num_failures *)
  g_init : nat;                     (* init_num_cuts *)
  g_canrep : bool;                  (* canReplaceGivenCuts *)
  g_repeat : bool;                  (* isSetupForRepeatedUse *)
  g_mode : vpcmode;
  g_curr : nat;                     (* curr_disj_id *)
  g_limit : Z                       (* params.get(CUTLIMIT) *)
}.

Definition bump {A} (eqb : A -> A -> bool) (f : A -> Z) (k : A) (d : Z) : A -> Z :=
  fun x => if eqb k x then (f x + d)%Z else f x.

(** Constants of the surroundings: Euclidean norm of a row, orthogonality of two rows (external
    arithmetic with square roots), solution to be cut, tolerances. *)
Record genv := {
  e_norm : cut -> Q; e_ortho : cut -> cut -> Q; e_sol : nat -> Q;
  e_minortho : Q; e_eps : Q; e_minvabs : Q; e_minvrel : Q
}.

(** CglVPC.cpp:561-591 [addCut].  (push_back of every array, then num_cuts++.) *)
Definition insertCut (g : gstate) (c : ecut) (ty : cuttype) (h : objtype) (d : nat) : gstate :=
  {| g_cuts := g_cuts g ++ [c];
     g_type := g_type g ++ [ty]; g_heur := g_heur g ++ [h]; g_disj := g_disj g ++ [d];
     g_ntype := bump cuttype_eqb (g_ntype g) ty 1; g_nheur := bump objtype_eqb (g_nheur g) h 1;
     g_nobj := g_nobj g; g_nfailheur := g_nfailheur g; g_nfails := g_nfails g;
     g_num_cuts := S (g_num_cuts g); g_num_obj := g_num_obj g; g_num_fail := g_num_fail g;
     g_init := g_init g; g_canrep := g_canrep g; g_repeat := g_repeat g; g_mode := g_mode g;
     g_curr := g_curr g; g_limit := g_limit g |}.
(** CglVPC.cpp:561-591 with the violation test of PRLP.cpp. *)
Definition addCut (E : genv) (g : gstate) (c : ecut) (ty : cuttype) (h : objtype) (d : nat)
    (check_violation : bool) : gstate * bool :=
  if check_violation
     && badViolation (ec c) (e_norm E (ec c)) (e_sol E) (e_minvabs E) (e_minvrel E)
  then (g, false)
  else (insertCut g c ty h d, true).

(** CglVPC.cpp:601-629 [setupAsNew] (exitReason, EPS and the user data are elsewhere). *)
Definition setupAsNew (g : gstate) : gstate :=
  {| g_cuts := g_cuts g;
     g_type := if g_repeat g then g_type g else [];
     g_heur := if g_repeat g then g_heur g else [];
     g_disj := if g_repeat g then g_disj g else [];
     g_ntype := fun _ => 0%Z; g_nheur := fun _ => 0%Z; g_nobj := fun _ => 0%Z;
     g_nfailheur := fun _ => 0%Z; g_nfails := fun _ => 0%Z;
     g_num_cuts := 0; g_num_obj := 0; g_num_fail := 0; g_init := 0;
     g_canrep := if g_repeat g then g_canrep g else false;
     g_repeat := g_repeat g; g_mode := g_mode g; g_curr := g_curr g; g_limit := g_limit g |}.

(** CglVPC.cpp:252-274: prepare the members for the cuts given. [None] = exit(1). *)
Definition beginRound (g : gstate) (given : list ecut) : option gstate :=
  let g1 := setupAsNew g in
  let n := length given in
  let clear := Nat.eqb n 0 in
  if negb clear && g_canrep g1 && negb (Nat.eqb (length (g_type g1)) n) then None
  else Some
    {| g_cuts := given;
       g_type := if clear then [] else g_type g1; g_heur := if clear then [] else g_heur g1;
       g_disj := if clear then [] else g_disj g1;
       g_ntype := g_ntype g1; g_nheur := g_nheur g1; g_nobj := g_nobj g1;
       g_nfailheur := g_nfailheur g1; g_nfails := g_nfails g1;
       g_num_cuts := g_num_cuts g1; g_num_obj := g_num_obj g1; g_num_fail := g_num_fail g1;
       g_init := n; g_canrep := g_canrep g1; g_repeat := g_repeat g1; g_mode := g_mode g1;
       g_curr := g_curr g1; g_limit := g_limit g1 |}.

(** CglVPC.cpp:122-131 [getCutLimit(CUTLIMIT, numFracVar)]. *)
Definition getCutLimit (CUTLIMIT : Z) (numFracVar : nat) : Z :=
  if (CUTLIMIT =? 0)%Z then 0%Z
  else if (0 <? CUTLIMIT)%Z then CUTLIMIT
  else if Nat.eqb numFracVar 0 then 0%Z else (- CUTLIMIT * Z.of_nat numFracVar)%Z.

(** CglVPC.cpp:1576-1583 [reachedCutLimitForDisjunction]: looks at the first [num_cuts] entries of
    [disjID] (reading past the end is undefined; the model reads what exists). *)
Definition countDisj (g : gstate) (d : nat) : nat :=
  length (filter (Nat.eqb d) (firstn (g_num_cuts g) (g_disj g))).
(** CglVPC.cpp:1590-1606 [reachedCutLimit()] with the default argument; include/CglVPC.hpp:182-184. *)
Definition reachedCutLimit (g : gstate) : bool :=
  match g_mode g with
  | DISJ_SET_PBB | SPLITS | CROSSES => (g_limit g <=? Z.of_nat (countDisj g (g_curr g)))%Z
  | _ => (g_limit g <=? Z.of_nat (g_num_cuts g))%Z
  end.

(** One objective given to the PRLP: the heuristic it belongs to and everything the solver and the
    (separately modelled) conversion and cleaning steps report for it. *)
Record attempt := {
  a_heur : objtype;
  a_optimal : bool; a_dualinf : bool; a_iterlim : bool; a_hitmax : bool; a_abandoned : bool;
  a_primalinf : bool;
  a_same : bool;              (* an earlier solution was stored and the new one equals it *)
  a_cut : cut;                (* the cut after setCutFromNBCoefficients / setOsiRowCut and cleanCut *)
  a_clean : cleanresult       (* verdict of cleanCut *)
}.

(** PRLP.cpp:555-569, the status returned by [resolvePRLP]. *)
Definition resolveStatus (a : attempt) : Z :=
  if a_optimal a then 0%Z
  else if a_dualinf a then fcode F_DUAL_INFEASIBLE
  else if a_iterlim a then fcode F_ITERATION_LIMIT
  else if a_hitmax a then fcode F_TIME_LIMIT
  else if a_abandoned a then fcode F_ABANDONED
  else fcode F_UNKNOWN.

(** CutHelper.cpp:208-234: the codes returned by [cleanCut]. *)
Definition cleanCode (r : cleanresult) : Z :=
  match r with
  | CleanOK => 0%Z | BadSupport => fcode F_BAD_SUPPORT
  | BadViolation => fcode F_BAD_VIOLATION | BadDynamism => fcode F_BAD_DYNAMISM end.

(** vector::operator[] assignment inside the vector. *)
Fixpoint set_nth {A} (l : list A) (i : nat) (x : A) : list A :=
  match l, i with
  | [], _ => []
  | _ :: r, O => x :: r
  | y :: r, S j => y :: set_nth r j x
  end.

(** PRLP.cpp:712-727: replace cut [i] of the collection (statistics at [i - start]).
    [None]: the statistics arrays do not have an entry [i - start] (out-of-range access). *)
Definition replaceCut (g : gstate) (i start : nat) (c : ecut) (h : objtype) : option gstate :=
  match nth_error (g_heur g) (i - start), nth_error (g_type g) (i - start) with
  | Some oh, Some ot =>
      Some {| g_cuts := set_nth (g_cuts g) i c;
         g_type := set_nth (g_type g) (i - start) VPC; g_heur := set_nth (g_heur g) (i - start) h;
         g_disj := g_disj g;
         g_ntype := bump cuttype_eqb (bump cuttype_eqb (g_ntype g) ot (-1)) VPC 1;
         g_nheur := bump objtype_eqb (bump objtype_eqb (g_nheur g) oh (-1)) h 1;
         g_nobj := g_nobj g; g_nfailheur := g_nfailheur g; g_nfails := g_nfails g;
         g_num_cuts := g_num_cuts g; g_num_obj := g_num_obj g; g_num_fail := g_num_fail g;
         g_init := g_init g; g_canrep := g_canrep g; g_repeat := g_repeat g; g_mode := g_mode g;
         g_curr := g_curr g; g_limit := g_limit g |}
  | _, _ => None
  end.

(** PRLP.cpp:638-759 [genCutHelper].  [structSICs] is never checked ([checkIfDuplicateSIC] is the
    constant false), so the SIC flags are false and the SIC counters change by 0.
    Effectiveness is violation / norm. *)
Definition genCutHelper (E : genv) (g : gstate) (a : attempt) : option (gstate * Z) :=
  if negb (a_optimal a) then Some (g, 0%Z)
  else if reachedCutLimit g then Some (g, fcode F_CUT_LIMIT)
  else if negb (cleanCode (a_clean a) =? 0)%Z then Some (g, cleanCode (a_clean a))
  else
    let c := a_cut a in
    let e := violated c (e_sol E) / e_norm E c in
    let old := map ec (g_cuts g) in
    let start := if g_canrep g then O else g_init g in
    let dup := snd (howDuplicate old c 0 (e_eps E)) in
    let (moi, mo) := minOrtho old c 0 (e_eps E) (e_minortho E) (e_ortho E) in
    match dup with
    | Some _ => Some (g, fcode F_DUPLICATE_VPC)
    | None =>
        if Qltb mo (e_minortho E) then
          match moi with
          | Some i =>
              if Nat.leb start i then
                match nth_error (g_cuts g) i with
                | None => None
                | Some oc =>
                    if Nat.ltb (length (crow c)) (length (crow (ec oc))) || Qltb (eff oc) e
                    then match replaceCut g i start {| ec := c; eff := e |} (a_heur a) with
                         | Some g' => Some (g', 0%Z) | None => None end
                    else Some (g, 0%Z)
                end
              else Some (g, fcode F_ORTHOGONALITY_VPC)
          | None => Some (g, fcode F_ORTHOGONALITY_VPC)
          end
        else Some (insertCut g {| ec := c; eff := e |} VPC (a_heur a) (g_curr g), 1%Z)
    end.

(** Counting one failure, PRLP.cpp:800-809. *)
Definition countFailure (g : gstate) (status : Z) (h : objtype) : gstate :=
  {| g_cuts := g_cuts g; g_type := g_type g; g_heur := g_heur g; g_disj := g_disj g;
     g_ntype := g_ntype g; g_nheur := g_nheur g; g_nobj := g_nobj g;
     g_nfailheur := if (status <=? 0)%Z then bump objtype_eqb (g_nfailheur g) h 1 else g_nfailheur g;
     g_nfails := if (status <? 0)%Z then bump Nat.eqb (g_nfails g) (Z.to_nat (- (status + 1))) 1 else g_nfails g;
     g_num_cuts := g_num_cuts g; g_num_obj := g_num_obj g;
     g_num_fail := if (status <=? 0)%Z then S (g_num_fail g) else g_num_fail g;
     g_init := g_init g; g_canrep := g_canrep g; g_repeat := g_repeat g; g_mode := g_mode g;
     g_curr := g_curr g; g_limit := g_limit g |}.

(** PRLP.cpp:764-818 [exitGenCut]. [None] = exit(1) (cuts from a non-optimal PRLP). *)
Definition exitGenCut (g : gstate) (n : Z) (a : attempt) : option (gstate * Z) :=
  let bad := (0 <=? n)%Z && negb (a_optimal a) in
  let status :=
    if bad then
      if a_iterlim a then fcode F_ITERATION_LIMIT
      else if a_hitmax a then fcode F_TIME_LIMIT
      else if a_abandoned a then fcode F_ABANDONED
      else if a_dualinf a then fcode F_DUAL_INFEASIBLE
      else if a_primalinf a then fcode F_PRIMAL_INFEASIBLE
      else fcode F_UNKNOWN
    else n in
  if bad && (0 <? n)%Z then None
  else Some (countFailure g status (a_heur a), status).

(** PRLP.cpp:584-586. *)
Definition countObjective (g : gstate) (h : objtype) : gstate :=
  {| g_cuts := g_cuts g; g_type := g_type g; g_heur := g_heur g; g_disj := g_disj g;
     g_ntype := g_ntype g; g_nheur := g_nheur g; g_nobj := bump objtype_eqb (g_nobj g) h 1;
     g_nfailheur := g_nfailheur g; g_nfails := g_nfails g;
     g_num_cuts := g_num_cuts g; g_num_obj := S (g_num_obj g); g_num_fail := g_num_fail g;
     g_init := g_init g; g_canrep := g_canrep g; g_repeat := g_repeat g; g_mode := g_mode g;
     g_curr := g_curr g; g_limit := g_limit g |}.

(** PRLP.cpp:577-636 [genCut]. The disjunction id of the PRLP is the current one
    (CglVPC.cpp:1491 constructs the PRLP with [currDisjID] = curr_disj_id). *)
Definition genCut (E : genv) (g : gstate) (a : attempt) : option (gstate * Z) :=
  let g1 := countObjective g (a_heur a) in
  if reachedCutLimit g1 then exitGenCut g1 (fcode F_CUT_LIMIT) a
  else
    let rc := resolveStatus a in
    if (rc <? 0)%Z && negb (rc =? fcode F_DUAL_INFEASIBLE)%Z then exitGenCut g1 rc a
    else if a_optimal a then
      if a_same a then exitGenCut g1 (fcode F_DUPLICATE_VPC) a
      else match genCutHelper E g1 a with
           | None => None
           | Some (g2, n) => exitGenCut g2 n a
           end
    else if a_dualinf a then exitGenCut g1 (fcode F_DUAL_INFEASIBLE) a
    else exitGenCut g1 rc a.

(** [CglVPC::reachedFailureLimit], CglVPC.cpp:1638-1685, exact arithmetic.
    Conversion of a double outside the int range gives INT_MIN on x86, hence "MANY_OBJ < 0".
    [time] = total PRLP solve time. *)
(** Default thresholds .95, .90, .80 (include/CglVPC.hpp:422-424): the exact values of the binary64
    numbers the compiler stores.  (1 - .9 is then exact in binary64; the rounding of the divisions
    below is not modelled.) *)
Definition few_default : Q := 4278419646001971 # 4503599627370496.
(** include/CglVPC.hpp:423: .90 as the double stored. *)
Definition many_default : Q := 8106479329266893 # 9007199254740992.
(** include/CglVPC.hpp:424: .80 as the double stored. *)
Definition manyobj_default : Q := 3602879701896397 # 4503599627370496.
(** The largest int (32 bits). *)
Definition INT_MAX : Z := 2147483647%Z.
(** Conversion of a double to int: out of range gives INT_MIN (x86-64; undefined behaviour in C++). *)
Definition to_int (z : Z) : Z := if ((- INT_MAX - 1 <=? z) && (z <=? INT_MAX))%Z%bool then z else (- INT_MAX - 1)%Z.
(** CglVPC.cpp:1638-1685. *)
Definition reachedFailureLimit (CUT_LIMIT num_cuts num_fails : Z) (few many manyobj time PRLP_TIMELIMIT : Q) : bool :=
  let num_obj := (num_cuts + num_fails)%Z in
  if (num_obj =? 0)%Z then false
  else
    let FEW_CUTS := 1%Z in
    let NO_CUTS_OBJ_LIMIT := Qceiling (inject_Z FEW_CUTS / (1 - few)) in
    let MANY_CUTS := Qceiling ((25 # 100) * inject_Z CUT_LIMIT) in
    let MANY_OBJ0 := to_int (Z.max (Qceiling (inject_Z FEW_CUTS / (1 - few)))
                                   (Qceiling (inject_Z MANY_CUTS / (1 - many)))) in
    let MANY_OBJ := if (MANY_OBJ0 <? 0)%Z then INT_MAX else MANY_OBJ0 in
    let fail_ratio := inject_Z num_fails / inject_Z num_obj in
    let reached :=
      if ((MANY_OBJ <=? num_obj)%Z && greaterThanVal fail_ratio manyobj EPS7) then true
      else if ((MANY_CUTS <=? num_cuts)%Z && greaterThanVal fail_ratio many EPS7) then true
      else if ((FEW_CUTS <=? num_cuts)%Z && greaterThanVal fail_ratio few EPS7) then true
      else ((num_cuts <? FEW_CUTS)%Z && (NO_CUTS_OBJ_LIMIT <=? num_obj)%Z)%bool in
    reached
    || ((MANY_OBJ <=? num_obj)%Z && Qltb 10 time && Qle_bool PRLP_TIMELIMIT (time / inject_Z num_obj)).
