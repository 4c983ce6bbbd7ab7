(** Printing the parameters and constants: printParams and the to_string methods of include/VPCParameters.hpp, character by
    character.  Left out: a string value with a NUL character (printed up to it, c_str()). *)
From Coq Require Import String.
From Verif Require Export Prelude Model.Tolerance Model.TextUtil Model.Parameters Model.Names.
#[local] Open Scope Q_scope.
#[local] Open Scope list_scope.

(** VPCParameters.hpp:638-647 [intConstValues]. *)
Definition intConsts : list (text * Z) :=
  [(txt "PRLP_PRESOLVE", 2%Z); (txt "NB_SPACE", 1%Z); (txt "NUM_OBJ_PER_POINT", (-2)%Z); (txt "MODE_OBJ_PER_POINT", 121%Z);
   (txt "MAX_SUPPORT_ABS", Parameters.INT_MAX); (txt "MIN_SUPPORT_THRESHOLD", 1000%Z); (txt "LUB", 1000%Z); (txt "CHECK_DUPLICATES", 1%Z)].
(** VPCParameters.hpp:650-661 [doubleConstValues]; decimal constants stand for themselves. *)
Definition doubleConsts : list (text * Q) :=
  [(txt "MAX_DYN_LUB", inject_Z (10 ^ 13)); (txt "MAX_DYN", inject_Z (10 ^ 8)); (txt "MIN_VIOL_REL", 1 # 10000000); (txt "MIN_VIOL_ABS", 1 # 10000000);
   (txt "EPS_COEFF_LUB", 1 # 10000000000000); (txt "EPS_COEFF", 1 # 100000); (txt "MIN_PRLP_TIMELIMIT", 5); (txt "RAYEPS", 1 # 10000000);
   (txt "DIFFEPS", 1 # 1000)].

(** The order in which the unordered_maps of one object are run through (implementation-defined; the keys do not change after
    construction), VPCParameters.hpp:876-900. *)
Record orders := { o_int : list intParam; o_double : list doubleParam; o_string : list stringParam; o_ci : list (text * Z); o_cd : list (text * Q) }.

(** snprintf into temp[500], utility.hpp:303-329. *)
Definition into500 (t : text) : text := firstn 499 t.
(** printf's "%05d" (external): zeros between the sign and the digits, up to five characters. *)
Definition zero_padded (w : nat) (z : Z) : text :=
  let ds := digits (Z.abs z) in
  let sg := if (z <? 0)%Z then ["-"%char] else [] in sg ++ repeat "0"%char (w - List.length sg - List.length ds) ++ ds.
(** utility.hpp:292-332 [stringValue] of an int with the default infinity INT_MAX and without the numbers of digits, called at
    VPCParameters.hpp:341-350 with "%d" (418-424) or "%05d" (879). *)
Definition int_value (padded : bool) (z : Z) : text :=
  if d_isInfinity (zd z) (zd Parameters.INT_MAX) then into500 (txt "'inf'")
  else if d_isNegInfinity (zd z) (zd (- Parameters.INT_MAX)) then into500 (txt "'-inf'")
  else into500 (if padded then zero_padded 5 z else int_text z).
(** The same of a double with "%.3e" (VPCParameters.hpp:441-447); [pe]: what printf makes of a finite double. *)
Definition double_value (pe : Q -> text) (d : dbl) : text :=
  if d_isInfinity d dbl_max then into500 (txt "'inf'")
  else if d_isNegInfinity d dbl_lowest then into500 (txt "'-inf'")
  else match d with DFin q => into500 (pe q) | _ => [] end.
(** VPCParameters.hpp:329-354 and 470-485 [to_string]. *)
Definition to_string (amount : Z) (name value : text) : text :=
  if (amount =? 1)%Z then lowerCaseString name
  else if (amount =? 2)%Z then value
  else lowerCaseString name ++ txt "," ++ value.

(** The parameters in the order they are run through, name and value (a key of the order that is not in the map does not occur). *)
(** VPCParameters.hpp:876-884. *)
Definition int_items (O : orders) (P : params) : list (text * text) :=
  flat_map (fun k => match lookup int_eqb (ints P) k with
                     | Some p => [(ip_name p, int_value (int_eqb k DISJ_TERMS) (ip_val p))] | None => [] end) (o_int O).
(** VPCParameters.hpp:885-888. *)
Definition double_items (pe : Q -> text) (O : orders) (P : params) : list (text * text) :=
  flat_map (fun k => match lookup double_eqb (doubles P) k with Some p => [(dp_name p, double_value pe (dp_val p))] | None => [] end) (o_double O).
(** VPCParameters.hpp:889-892. *)
Definition string_items (O : orders) (P : params) : list (text * text) :=
  flat_map (fun k => match lookup string_eqb (strings P) k with Some p => [(sp_name p, sp_val p)] | None => [] end) (o_string O).
(** VPCParameters.hpp:893-900. *)
Definition const_items (pe : Q -> text) (O : orders) : list (text * text) :=
  map (fun c => (fst c, int_value false (snd c))) (o_ci O) ++ map (fun c => (fst c, double_value pe (DFin (snd c)))) (o_cd O).

(** VPCParameters.hpp:866-873: is [whatToPrint] one of these. *)
Definition one_of (what : Z) (l : list Z) : bool := existsb (Z.eqb what) l.
(** VPCParameters.hpp:844-902 [printParams]; [logfile]: the file pointer is not NULL. *)
Definition printParams (pe : Q -> text) (O : orders) (logfile : bool) (P : params) (what : Z) : text :=
  if negb logfile then []
  else
    let numeric := one_of what [0; 1; 2; 6; 7; 8]%Z in
    let strings := one_of what [3; 4; 5; 6; 7; 8]%Z in
    let consts := one_of what [9; 10; 11]%Z in
    let SEP := if one_of what [0; 3; 6; 10]%Z then ascii_of_nat 10 else ","%char in
    let amount := Z.rem what 3 in
    let all (l : list (text * text)) := concat (map (fun nv => to_string amount (fst nv) (snd nv) ++ [SEP]) l) in
    (if numeric then all (int_items O P) ++ all (double_items pe O P) else []) ++
    (if strings then all (string_items O P) else []) ++
    (if consts then all (const_items pe O) else []).
