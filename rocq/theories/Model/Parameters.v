(** The parameter object: include/VPCParameters.hpp.
    Doubles are finite rationals, infinities or NaN ([dbl]); sums such as [val2 - eps] are exact for
    finite numbers (simplification: rounding of them is absent).  Maps are association lists. *)
From Verif Require Export Model.Tolerance Model.TextUtil.
#[local] Open Scope Z_scope.

(** ** Enumerations, VPCParameters.hpp:51-123. *)
Inductive intParam :=
| CUTLIMIT
| DISJ_TERMS
| GOMORY
| MAX_NUM_HOT_START_VIOL
| MODE
| PARTIAL_BB_STRATEGY
| PARTIAL_BB_NUM_STRONG
| PARTIAL_BB_KEEP_PRUNED_NODES
| PREPROCESS
| PRLP_FLIP_BETA
| ROUNDS
| STRENGTHEN
| TEMP
| USE_ALL_ONES
| USE_DISJ_LB
| USE_ITER_BILINEAR
| USE_TIGHT_POINTS
| USE_TIGHT_RAYS
| USE_UNIT_VECTORS
| VERBOSITY
| RANDOM_SEED
| BB_RUNS
| BB_STRATEGY
| BB_MODE.
(** VPCParameters.hpp:102-114 (without the count NUM_DOUBLE_PARAMS). *)
Inductive doubleParam :=
| AWAY
| BB_TIMELIMIT
| MAX_SUPPORT_REL
| EPS
| INF
| IP_OBJ
| MIN_ORTHOGONALITY
| PARTIAL_BB_TIMELIMIT
| PRLP_TIMELIMIT
| TIMELIMIT.
(** VPCParameters.hpp:116-123 (without the count NUM_STRING_PARAMS). *)
Inductive stringParam :=
| DISJ_OPTIONS
| FILENAME
| LOGFILE
| OPTFILE
| SOLFILE.
(** The values the loops over static_cast<intParam>(i), i = 0.. run through (lines 720, 737, 754). *)
Definition all_int : list intParam := [CUTLIMIT; DISJ_TERMS; GOMORY; MAX_NUM_HOT_START_VIOL; MODE; PARTIAL_BB_STRATEGY; PARTIAL_BB_NUM_STRONG; PARTIAL_BB_KEEP_PRUNED_NODES; PREPROCESS; PRLP_FLIP_BETA; ROUNDS; STRENGTHEN; TEMP; USE_ALL_ONES; USE_DISJ_LB; USE_ITER_BILINEAR; USE_TIGHT_POINTS; USE_TIGHT_RAYS; USE_UNIT_VECTORS; VERBOSITY; RANDOM_SEED; BB_RUNS; BB_STRATEGY; BB_MODE].
(** VPCParameters.hpp:737: the values of static_cast<doubleParam>(i), i < NUM_DOUBLE_PARAMS. *)
Definition all_double : list doubleParam := [AWAY; BB_TIMELIMIT; MAX_SUPPORT_REL; EPS; INF; IP_OBJ; MIN_ORTHOGONALITY; PARTIAL_BB_TIMELIMIT; PRLP_TIMELIMIT; TIMELIMIT].
(** VPCParameters.hpp:754: the values of static_cast<stringParam>(i), i < NUM_STRING_PARAMS. *)
Definition all_string : list stringParam := [DISJ_OPTIONS; FILENAME; LOGFILE; OPTFILE; SOLFILE].
(** Equality of keys of the unordered_map, VPCParameters.hpp:500. *)
Definition int_eqb (a b : intParam) : bool := if (ltac:(decide equality) : {a = b} + {a <> b}) then true else false.
(** Equality of keys of the unordered_map, VPCParameters.hpp:591. *)
Definition double_eqb (a b : doubleParam) : bool := if (ltac:(decide equality) : {a = b} + {a <> b}) then true else false.
(** Equality of keys of the unordered_map, VPCParameters.hpp:625. *)
Definition string_eqb (a b : stringParam) : bool := if (ltac:(decide equality) : {a = b} + {a <> b}) then true else false.

(** Outcome of an operation: it returns, the process ends with exit(1), std::terminate is called
    (an exception nobody catches), or the behaviour is undefined (find() of an absent key). *)
Inductive res (A : Type) := Done (a : A) | Exit1 | Terminated | Undef.
Arguments Done {A}. Arguments Exit1 {A}. Arguments Terminated {A}. Arguments Undef {A}.

(** ** Tolerance tests on doubles (include/common/utility.hpp:219-253) with infinities and NaN. *)
Definition d_sub (a : dbl) (e : Q) : dbl := match a with DFin q => DFin (q - e) | _ => a end.
(** Adding a finite tolerance to a double, used by utility.hpp:224-226; rounding of the sum is not modelled. *)
Definition d_add (a : dbl) (e : Q) : dbl := match a with DFin q => DFin (q + e) | _ => a end.
(** The comparison <= on doubles (utility.hpp:220, 225, 246, 252): false when a NaN is involved. *)
Definition d_le (a b : dbl) : bool :=
  match a, b with
  | DNaN, _ | _, DNaN => false
  | DInf true, _ => true
  | _, DInf false => true
  | DInf false, _ => false
  | _, DInf true => false
  | DFin x, DFin y => Qle_bool x y
  end.
(** utility.hpp:219-221 with the default eps 1e-7. *)
Definition d_lessThanVal (a b : dbl) : bool := d_le a (d_sub b EPS7).
(** utility.hpp:224-226 with the default eps 1e-7. *)
Definition d_greaterThanVal (a b : dbl) : bool := d_le (d_add b EPS7) a.
(** utility.hpp:229-231 with the default eps 1e-7. *)
Definition d_isVal (a b : dbl) : bool :=
  match a, b with DFin x, DFin y => isVal x y EPS7 | _, _ => false end.  (* inf - inf is NaN *)
(** utility.hpp:245-247 with the default eps 1e-7. *)
Definition d_isInfinity (a inf : dbl) : bool := d_le inf a || negb (d_lessThanVal a inf).
(** utility.hpp:251-253 with the default eps 1e-7. *)
Definition d_isNegInfinity (a ninf : dbl) : bool := d_le a ninf || negb (d_greaterThanVal a ninf).

(** std::numeric_limits<int>::max(), VPCParameters.hpp:358, 500-588 and 729. *)
Definition INT_MAX : Z := 2 ^ 31 - 1.
(** std::numeric_limits<int>::lowest(), VPCParameters.hpp:359, 500-588 and 730. *)
Definition INT_MIN : Z := - 2 ^ 31.
(** std::numeric_limits<double>::max(), VPCParameters.hpp:358, 591-622 and 746. *)
Definition dbl_max : dbl := DFin DBL_MAXv.
(** std::numeric_limits<double>::lowest(), VPCParameters.hpp:359, 591-622 and 747. *)
Definition dbl_lowest : dbl := DFin (- DBL_MAXv).

(** ** NumericParameter, lines 308-408. *)
Record iparam := { ip_name : text; ip_val : Z; ip_min : Z; ip_max : Z; ip_allowed : list Z }.
(** DoubleParameter, VPCParameters.hpp:429-451: name, value and range (no list of allowed values is given, 591-622). *)
Record dparam := { dp_name : text; dp_val : dbl; dp_min : dbl; dp_max : dbl }.
(** StringParameter, VPCParameters.hpp:454-491: name and value. *)
Record sparam := { sp_name : text; sp_val : text }.

(** The conversion int -> double of the comparison functions' arguments (exact). *)
Definition zd (z : Z) : dbl := DFin (inject_Z z).

(** Lines 359-378 [val_is_allowed] with T = int: only the list is looked up for [test_val]; the
    range branches look at the stored value. *)
Definition i_val_is_allowed (p : iparam) (test_val : Z) : bool :=
  match ip_allowed p with
  | _ :: _ => existsb (Z.eqb test_val) (ip_allowed p)
  | [] =>
      let v := zd (ip_val p) in let mn := zd (ip_min p) in let mx := zd (ip_max p) in
      if (d_isInfinity mn (zd INT_MAX) || d_greaterThanVal v mn) && d_isInfinity mx (zd INT_MAX) then true
      else if (d_isNegInfinity mx (zd INT_MIN) || d_lessThanVal v mx) && d_isNegInfinity mn (zd INT_MIN) then true
      else if d_isVal mn mx then d_isVal v mn
      else negb (d_lessThanVal v mn || d_greaterThanVal v mx)
  end.
(** The same with T = double (no double parameter has a list of allowed values). *)
(** VPCParameters.hpp:356-377 with T = double. *)
Definition d_val_is_allowed (p : dparam) (test_val : dbl) : bool :=
  let v := dp_val p in let mn := dp_min p in let mx := dp_max p in
  if (d_isInfinity mn dbl_max || d_greaterThanVal v mn) && d_isInfinity mx dbl_max then true
  else if (d_isNegInfinity mx dbl_lowest || d_lessThanVal v mx) && d_isNegInfinity mn dbl_lowest then true
  else if d_isVal mn mx then d_isVal v mn
  else negb (d_lessThanVal v mn || d_greaterThanVal v mx).

(** Lines 381-396 [check]: exit(1) unless the stored value is allowed.
    Line 289 [set]: store, then check. *)
Definition i_set (p : iparam) (v : Z) : res iparam :=
  let p' := {| ip_name := ip_name p; ip_val := v; ip_min := ip_min p; ip_max := ip_max p; ip_allowed := ip_allowed p |} in
  if i_val_is_allowed p' (ip_val p') then Done p' else Exit1.
(** Lines 289 [set] and 381-396 [check] for a double: exit(1) unless the stored value is allowed. *)
Definition d_set (p : dparam) (v : dbl) : res dparam :=
  let p' := {| dp_name := dp_name p; dp_val := v; dp_min := dp_min p; dp_max := dp_max p |} in
  if d_val_is_allowed p' (dp_val p') then Done p' else Exit1.
(** StringParameter inherits Parameter::check (line 291), which always passes. *)
Definition s_set (p : sparam) (v : text) : sparam := {| sp_name := sp_name p; sp_val := v |}.

(** ** Bit options, lines 31-46, 169-252. *)
(** Temporary options, lines 169-182, and b&b options, lines 215-231. *)
Inductive tempOption :=
| NONE | CHECK_CUTS_AGAINST_BB_OPT | PRINT_BOUND_BY_ROUND | SAVE_IP_OPT | GEN_TIKZ_STRING
| GEN_TIKZ_STRING_WITH_VPCS | GEN_TIKZ_STRING_WITH_GMICS | GEN_TIKZ_STRING_AND_RETURN | GEN_TIKZ_STRING_AND_EXIT.
(** The numeric values, VPCParameters.hpp:31-47 and 169-182. *)
Definition temp_value (o : tempOption) : Z :=
  match o with
  | NONE => 0 | CHECK_CUTS_AGAINST_BB_OPT => 8 | PRINT_BOUND_BY_ROUND => 16 | SAVE_IP_OPT => 32
  | GEN_TIKZ_STRING => 1024 | GEN_TIKZ_STRING_WITH_VPCS => 2048 | GEN_TIKZ_STRING_WITH_GMICS => 4096
  | GEN_TIKZ_STRING_AND_RETURN => 16384 | GEN_TIKZ_STRING_AND_EXIT => 32768
  end.
(** BB_Strategy_Options, VPCParameters.hpp:215-231. *)
Inductive bbOption :=
| off | cbc | cplex | gurobi | user_cuts | all_cuts_off | all_cuts_on | gmics_off | gmics_on
| presolve_off | presolve_on | heuristics_off | heuristics_on | use_best_bound | strong_branching_on.
(** The numeric values, VPCParameters.hpp:31-47 and 215-231. *)
Definition bb_value (o : bbOption) : Z :=
  match o with
  | off => 0 | cbc => 2 | cplex => 4 | gurobi => 8 | user_cuts => 16 | all_cuts_off => 32 | all_cuts_on => 64
  | gmics_off => 128 | gmics_on => 256 | presolve_off => 512 | presolve_on => 1024 | heuristics_off => 2048
  | heuristics_on => 4096 | use_best_bound => 8192 | strong_branching_on => 16384
  end.
(** Lines 185-195 and 234-244: [&], [|], [& ~] on ints (two's complement, as Z.land / Z.lor / Z.ldiff);
    the result of [&] is converted to bool. *)
Definition use_temp_option (strategy : Z) (o : tempOption) : bool := negb (Z.land strategy (temp_value o) =? 0).
(** VPCParameters.hpp:189-191. *)
Definition enable_temp_option (strategy : Z) (o : tempOption) : Z := Z.lor strategy (temp_value o).
(** VPCParameters.hpp:193-195. *)
Definition disable_temp_option (strategy : Z) (o : tempOption) : Z := Z.land strategy (Z.lnot (temp_value o)).
(** VPCParameters.hpp:234-236. *)
Definition use_bb_option (strategy : Z) (o : bbOption) : bool := negb (Z.land strategy (bb_value o) =? 0).
(** VPCParameters.hpp:238-240. *)
Definition enable_bb_option (strategy : Z) (o : bbOption) : Z := Z.lor strategy (bb_value o).
(** VPCParameters.hpp:242-244. *)
Definition disable_bb_option (strategy : Z) (o : bbOption) : Z := Z.land strategy (Z.lnot (bb_value o)).
(** Lines 246-252 [get_bb_option_value]: a sum. *)
Definition get_bb_option_value (os : list bbOption) : Z := fold_left (fun v o => v + bb_value o) os 0.

(** ** The tables, lines 500-632 (TRACE not defined). *)
Definition ipar (n : String.string) (v mn mx : Z) : iparam :=
  {| ip_name := txt n; ip_val := v; ip_min := mn; ip_max := mx; ip_allowed := [] |}.
Arguments ipar n%string_scope.
(** Lines 316-321: with a list of allowed values, min and max are those of the list. *)
Definition ilist (n : String.string) (v : Z) (l : list Z) : iparam :=
  {| ip_name := txt n; ip_val := v;
     ip_min := match l with [] => 0 | x :: r => fold_left Z.min r x end;
     ip_max := match l with [] => 0 | x :: r => fold_left Z.max r x end; ip_allowed := l |}.
Arguments ilist n%string_scope.
(** The constructor with a range, VPCParameters.hpp:313-314. *)
Definition dpar (n : String.string) (v mn mx : dbl) : dparam :=
  {| dp_name := txt n; dp_val := v; dp_min := mn; dp_max := mx |}.
Arguments dpar n%string_scope.
(** A finite double literal of the table, VPCParameters.hpp:591-622. *)
Definition fin (q : Q) : dbl := DFin q.
(** VPCParameters.hpp:500-588 [intParamValues]. *)
Definition intTable : list (intParam * iparam) :=
  [ (BB_MODE, ipar "BB_MODE" 10 0 111);
    (BB_STRATEGY, ipar "BB_STRATEGY" (get_bb_option_value [gurobi; user_cuts; presolve_off]) INT_MIN INT_MAX);
    (BB_RUNS, ipar "BB_RUNS" 0 INT_MIN INT_MAX);
    (RANDOM_SEED, ipar "RANDOM_SEED" 628 (-1) INT_MAX);
    (VERBOSITY, ipar "VERBOSITY" 0 0 2);
    (USE_UNIT_VECTORS, ipar "USE_UNIT_VECTORS" 0 INT_MIN INT_MAX);
    (USE_TIGHT_RAYS, ipar "USE_TIGHT_RAYS" 0 INT_MIN INT_MAX);
    (USE_TIGHT_POINTS, ipar "USE_TIGHT_POINTS" 0 INT_MIN INT_MAX);
    (USE_ITER_BILINEAR, ipar "USE_ITER_BILINEAR" 1 0 INT_MAX);
    (USE_DISJ_LB, ipar "USE_DISJ_LB" 1 0 1);
    (USE_ALL_ONES, ipar "USE_ALL_ONES" 1 0 1);
    (TEMP, ipar "TEMP" 0 INT_MIN INT_MAX);
    (STRENGTHEN, ipar "STRENGTHEN" 1 0 2);
    (ROUNDS, ipar "ROUNDS" 1 0 INT_MAX);
    (PRLP_FLIP_BETA, ipar "PRLP_FLIP_BETA" 0 (-1) 1);
    (PREPROCESS, ipar "PREPROCESS" 0 0 2);
    (PARTIAL_BB_NUM_STRONG, ipar "PARTIAL_BB_NUM_STRONG" 5 INT_MIN INT_MAX);
    (PARTIAL_BB_KEEP_PRUNED_NODES, ipar "PARTIAL_BB_KEEP_PRUNED_NODES" 0 0 1);
    (PARTIAL_BB_STRATEGY, ipar "PARTIAL_BB_STRATEGY" 4 INT_MIN INT_MAX);
    (MODE, ilist "MODE" 0 [0; 1; 3; 4]);
    (MAX_NUM_HOT_START_VIOL, ipar "MAX_NUM_HOT_START_VIOL" 2 (-1) INT_MAX);
    (GOMORY, ipar "GOMORY" 0 (-1) 1);
    (DISJ_TERMS, ipar "DISJ_TERMS" 0 INT_MIN INT_MAX);
    (CUTLIMIT, ipar "CUTLIMIT" (-1) INT_MIN INT_MAX) ].
(** Decimal constants such as 1e-7 stand for themselves (simplification: not their nearest double). *)
Definition doubleTable : list (doubleParam * dparam) :=
  [ (TIMELIMIT, dpar "TIMELIMIT" (fin 60) (fin 0) dbl_max);
    (PRLP_TIMELIMIT, dpar "PRLP_TIMELIMIT" (fin (-1)) (fin (-1)) dbl_max);
    (PARTIAL_BB_TIMELIMIT, dpar "PARTIAL_BB_TIMELIMIT" (fin 3600) (fin 0) dbl_max);
    (MIN_ORTHOGONALITY, dpar "MIN_ORTHOGONALITY" (fin 0) (fin 0) (fin 1));
    (IP_OBJ, dpar "IP_OBJ" dbl_max dbl_lowest dbl_max);
    (INF, dpar "INF" dbl_max dbl_max dbl_max);
    (EPS, dpar "EPS" (fin (1 # 10000000)) (fin 0) (fin 1));
    (MAX_SUPPORT_REL, dpar "MAX_SUPPORT_REL" (fin 1) (fin 0) (fin 1));
    (BB_TIMELIMIT, dpar "BB_TIMELIMIT" (fin 3600) (fin 0) dbl_max);
    (AWAY, dpar "AWAY" (fin (1 # 1000)) (fin 0) (fin (1 # 1000))) ].
(** VPCParameters.hpp:625-635 [stringParamValues]. *)
Definition stringTable : list (stringParam * sparam) :=
  [ (DISJ_OPTIONS, {| sp_name := txt "DISJ_OPTIONS"; sp_val := [] |});
    (SOLFILE, {| sp_name := txt "SOLFILE"; sp_val := [] |});
    (OPTFILE, {| sp_name := txt "OPTFILE"; sp_val := [] |});
    (LOGFILE, {| sp_name := txt "LOGFILE"; sp_val := [] |});
    (FILENAME, {| sp_name := txt "FILENAME"; sp_val := [] |}) ].

(** ** struct VPCParameters, lines 493-765 (the constants, which have no setter, and the log file are
    not modelled). *)
Record params := { ints : list (intParam * iparam); doubles : list (doubleParam * dparam); strings : list (stringParam * sparam) }.
(** VPCParameters.hpp:665 and 500-635: a default-constructed VPCParameters. *)
Definition new_params : params := {| ints := intTable; doubles := doubleTable; strings := stringTable |}.

(** unordered_map::find, as used at VPCParameters.hpp:684-714 and 722-756. *)
Fixpoint lookup {K V} (eqb : K -> K -> bool) (m : list (K * V)) (k : K) : option V :=
  match m with [] => None | (k', v) :: r => if eqb k k' then Some v else lookup eqb r k end.
(** Assignment through the reference find() returns. *)
Fixpoint update {K V} (eqb : K -> K -> bool) (m : list (K * V)) (k : K) (v : V) : list (K * V) :=
  match m with [] => [] | (k', v') :: r => if eqb k k' then (k', v) :: r else (k', v') :: update eqb r k v end.

(** Lines 699-703. *)
Definition get_int (P : params) (k : intParam) : res Z :=
  match lookup int_eqb (ints P) k with Some p => Done (ip_val p) | None => Undef end.
(** VPCParameters.hpp:701; [Undef]: the key is not in the map. *)
Definition get_double (P : params) (k : doubleParam) : res dbl :=
  match lookup double_eqb (doubles P) k with Some p => Done (dp_val p) | None => Undef end.
(** VPCParameters.hpp:703; [Undef]: the key is not in the map. *)
Definition get_string (P : params) (k : stringParam) : res text :=
  match lookup string_eqb (strings P) k with Some p => Done (sp_val p) | None => Undef end.
(** Lines 710-714. *)
Definition set_int (P : params) (k : intParam) (v : Z) : res params :=
  match lookup int_eqb (ints P) k with
  | None => Undef
  | Some p => match i_set p v with
              | Done p' => Done {| ints := update int_eqb (ints P) k p'; doubles := doubles P; strings := strings P |}
              | _ => Exit1
              end
  end.
(** VPCParameters.hpp:712. *)
Definition set_double (P : params) (k : doubleParam) (v : dbl) : res params :=
  match lookup double_eqb (doubles P) k with
  | None => Undef
  | Some p => match d_set p v with
              | Done p' => Done {| ints := ints P; doubles := update double_eqb (doubles P) k p'; strings := strings P |}
              | _ => Exit1
              end
  end.
(** VPCParameters.hpp:714; a StringParameter has no check (454-491). *)
Definition set_string (P : params) (k : stringParam) (v : text) : res params :=
  match lookup string_eqb (strings P) k with
  | None => Undef
  | Some p => Done {| ints := ints P; doubles := doubles P; strings := update string_eqb (strings P) k (s_set p v) |}
  end.

(** Lines 717-764 [set] by name.  The [name] declared inside each loop hides the one computed from
    the argument at line 718, so the test at lines 724, 741, 758 compares the parameter's own name
    with its own upper-case form without underscores.  Lines 731, 748: the value kept is the result
    of parseInt / parseDouble, a bool; [strtod] is the external conversion parseDouble uses. *)
Definition own_name_matches (n : text) : bool := text_eqb (upperCaseStringNoUnderscore n) n.
(** Conversion of a bool to a number, as at VPCParameters.hpp:731 and 748. *)
Definition b2z (b : bool) : Z := if b then 1 else 0.
(** VPCParameters.hpp:726-732: the value given to an int parameter. *)
Definition int_from (tmp : text) : Z :=
  if text_eqb tmp (txt "+inf") then INT_MAX
  else if text_eqb tmp (txt "-inf") then INT_MIN
  else b2z (fst (parseInt tmp)).
(** VPCParameters.hpp:743-749: the value given to a double parameter. *)
Definition double_from (strtod : text -> strtod_result) (tmp : text) : dbl :=
  if text_eqb tmp (txt "+inf") then dbl_max
  else if text_eqb tmp (txt "-inf") then dbl_lowest
  else DFin (inject_Z (b2z (fst (parseDouble (strtod tmp))))).
(** VPCParameters.hpp:720-735, 737-752 and 754-763: one of the three loops; [rest]: what follows it. *)
Fixpoint name_loop {K} (name_of : K -> option text) (do_set : K -> res params)
    (ks : list K) (rest : res (params * bool)) : res (params * bool) :=
  match ks with
  | [] => rest
  | k :: r =>
      match name_of k with
      | None => Undef
      | Some n => if own_name_matches n
                  then match do_set k with Done P' => Done (P', true) | Exit1 => Exit1 | Terminated => Terminated | Undef => Undef end
                  else name_loop name_of do_set r rest
      end
  end.
(** VPCParameters.hpp:717-764. *)
Definition set_by_name (strtod : text -> strtod_result) (P : params) (tmpname tmp : text) : res (params * bool) :=
  name_loop (fun k => option_map ip_name (lookup int_eqb (ints P) k)) (fun k => set_int P k (int_from tmp)) all_int
  (name_loop (fun k => option_map dp_name (lookup double_eqb (doubles P) k)) (fun k => set_double P k (double_from strtod tmp)) all_double
  (name_loop (fun k => option_map sp_name (lookup string_eqb (strings P) k)) (fun k => set_string P k tmp) all_string
  (Done (P, false)))).

(** Lines 803-841 [readParams].  [file]: [None] when it cannot be opened, otherwise its lines.
    Line 820: [throw;] with no exception being handled calls std::terminate. *)
Fixpoint read_lines (strtod : text -> strtod_result) (P : params) (ls : list text) : res params :=
  match ls with
  | [] => Done P
  | l :: r =>
      match getline ","%char l with
      | None => read_lines strtod P r                       (* empty line *)
      | Some (param_name, rest) =>
          match getline ","%char rest with
          | None => Terminated
          | Some (token, _) =>
              match set_by_name strtod P param_name token with
              | Done (P', _) => read_lines strtod P' r      (* not found: a warning only *)
              | Exit1 => Exit1 | Terminated => Terminated | Undef => Undef
              end
          end
      end
  end.
(** VPCParameters.hpp:803-841. *)
Definition readParams (strtod : text -> strtod_result) (P : params) (file : option (list text)) : res params :=
  match file with None => Exit1 | Some ls => read_lines strtod P ls end.

(** std::stoi: invalid_argument when nothing is converted, out_of_range outside int; text after the
    number is ignored. *)
(** std::stoi (external), used at VPCParameters.hpp:770-800. *)
Definition stoi (s : text) : option Z :=
  let r := strtol s in
  match sl_rest r with
  | None => None
  | Some _ => if sl_erange r || (sl_val r <? INT_MIN) || (INT_MAX <? sl_val r) then None else Some (sl_val r)
  end.

(** Lines 788-790: tokens up to the end of the text.  The recursion is on the number of characters
    left (each token consumes at least one). *)
Fixpoint options_loop (fuel : nat) (sep : ascii) (acc : list Z) (s : text) : res (list Z) :=
  match fuel with
  | O => Done acc
  | S f => match getline sep s with
           | None => Done acc
           | Some (tok, rest) => match stoi tok with
                                 | None => Terminated
                                 | Some z => options_loop f sep (acc ++ [z]) rest
                                 end
           end
  end.
(** Lines 770-800 [parseDisjOptions]: (vector after the call, status).  Both status codes are 0
    (lines 777-778).  An exception of stoi is not caught here nor by the callers (CglVPC.cpp:317,
    main.cpp:375). *)
Definition parseDisjOptions (P : params) (sep : ascii) (acc : list Z) : res (list Z * Z) :=
  let OK_STATUS := 0 in
  let ERROR_STATUS := 0 in
  match get_string P DISJ_OPTIONS with
  | Done [] => Done (acc, OK_STATUS)
  | Done s =>
      match options_loop (S (length s)) sep acc s with
      | Done opts =>
          match get_int P MODE, get_int P ROUNDS with
          | Done m, Done r =>
              if negb (m =? 4) && negb (Z.of_nat (length opts) =? r) then Done (opts, ERROR_STATUS)
              else Done (opts, OK_STATUS)
          | _, _ => Undef
          end
      | Exit1 => Exit1 | Terminated => Terminated | Undef => Undef
      end
  | Exit1 => Exit1 | Terminated => Terminated | Undef => Undef
  end.
