(** The report printed at the end of a run: last part of analyzeStrength (src/test/analysis.cpp:914-1066), analyzeBB
    (1068-1142) and stringValue with a width (include/common/utility.hpp:292-332), character by character with their
    buffers of 500 and 300 characters.  Undefined behaviour is [None].  Left out: stringValue for the iteration counts is given
    the largest long double as its infinity, whose conversion to double (no double is that large) is taken to be infinite. *)
From Verif Require Export Prelude Model.Tolerance Model.Names Model.Analysis Model.BBInfo Model.LogRow.
#[local] Open Scope Q_scope.
#[local] Open Scope list_scope.

(** The C library: printf of a double as "% .*g" and "%.*f" without width, and static_cast<int>(std::log10(x)). *)
Record clib := { pf_g : nat -> Q -> text; pf_f : nat -> Q -> text; pf_lg : Q -> Z }.

(** "%-*s": padded with blanks on the right (a negative width is its absolute value: "-" and the width); snprintf into [n]
    characters. *)
(** printf's field width (external). *)
Definition blanks (n : nat) : text := repeat " "%char n.
(** printf's "%-*s" (external). *)
Definition pad (w : Z) (t : text) : text := t ++ blanks (Z.to_nat (Z.abs w) - length t).
(** snprintf into a buffer (external): cut to its size less one. *)
Definition snprintf (n : nat) (t : text) : text := firstn (n - 1) t.
(** "%-*.*s" with the same number twice. *)
(** analysis.cpp:914-1142. *)
Definition name_cell (w : nat) (t : text) : text := pad (Z.of_nat w) (firstn w t).

(** utility.hpp:292-332 for a double and a format with two stars; with only one of the two numbers, or none, an argument of
    the format is missing. *)
Definition string_num (conv : nat -> Q -> text) (x INF : Q) (before after : Z) : option text :=
  let infinite (s : text) := if (before =? -1)%Z then Some s else Some (snprintf 500 (pad before s)) in
  if isInfinity x INF EPS7 then infinite (txt "'inf'")
  else if isNegInfinity x (- INF) EPS7 then infinite (txt "'-inf'")
  else if ((0 <=? before) && (0 <=? after))%Z then Some (snprintf 500 (pad before (conv (Z.to_nat after) x)))
  else None.
(** For an integer and the format "%-*ld" (one star). *)
(** utility.hpp:292-332. *)
Definition string_int (z : Z) (before : Z) : text := snprintf 500 (pad before (int_text z)).

(** Joining the pieces; nothing is defined after undefined behaviour. *)
Definition cat (a b : option text) : option text := match a, b with Some x, Some y => Some (x ++ y) | _, _ => None end.
(** Pieces one after the other. *)
Definition cats (l : list (option text)) : option text := fold_right cat (Some []) l.
(** The end of a line. *)
Definition NL : text := [ascii_of_nat 10].
(** snprintf into tmpstring. *)
(** analysis.cpp:914-1142. *)
Definition put (t : option text) : option text := option_map (snprintf 300) t.
(** snprintf into tmpstring (300 characters), analysis.cpp:900-1142. *)
Definition put' (t : text) : option text := Some (snprintf 300 t).

(** Lines 914-927. *)
Definition bound_vector (b : boundinfo) : list Q :=
  map (fun v => if isInfinity v DBL_MAX EPS7 then 0 else Qabs v) [b_lp b; b_root b; b_unstr b; b_gmic b; b_vpc b; b_best b; b_worst b; b_ip b].
(** std::max_element (external); the vector is not empty at analysis.cpp:914-927. *)
Definition max_element (l : list Q) : Q := match l with [] => 0 | x :: r => fold_left (fun m y => if Qltb m y then y else m) r x end.
(** analysis.cpp:920-927. *)
Definition max_digits (F : clib) (b : boundinfo) : Z :=
  let m := max_element (bound_vector b) in if Qltb 0 m then (pf_lg F (Qabs m) + 1)%Z else 7%Z.

(** Lines 914-1066.  [ig], [iv]: statistics of the Gomory cuts and VPCs, [hasG], [hasV]: there are such cuts, [all]: all_cuts_obj. *)
Definition strength_report (F : clib) (ig iv : cutinfo) (hasG hasV : bool) (b : boundinfo) (all : Q) : option text :=
  let d := max_digits F b in
  let value v := string_num (pf_g F) v DBL_MAX d (d + 8) in
  let start name v note := put (cats [Some (name_cell 16 name); value v; Some note]) in
  let active n what := put' (txt ", " ++ int_text n ++ txt " active " ++ what) in
  let part (c : bool) (t : list (option text)) := if c then t else [] in
  cats (
    [put' (NL ++ txt "## Results from adding cuts ##" ++ NL); start (txt "LP: ") (b_lp b) NL] ++
    part (finite (b_root b)) [start (txt "Root: ") (b_root b) (txt " (" ++ int_text (b_nroot b) ++ txt " bounds changed)" ++ NL)] ++
    part (finite (b_unstr b)) [start (txt "Unstr GMICs: ") (b_unstr b) (txt " (" ++ int_text (b_ngmic b) ++ txt " cuts"); Some (txt ")" ++ NL)] ++
    part (finite (b_gmic b)) ([start (txt "GMICs: ") (b_gmic b) (txt " (" ++ int_text (b_ngmic b) ++ txt " cuts"); active (ci_ag ig) (txt "GMICs")] ++
      part hasV [active (ci_ag iv) (txt "VPCs")] ++ [Some (txt ")" ++ NL)]) ++
    part (hasV && finite (b_vpc b)) ([start (txt "VPCs: ") (b_vpc b) (txt " (" ++ int_text (b_nvpc b) ++ txt " cuts")] ++
      part hasG [active (ci_av ig) (txt "GMICs")] ++ [active (ci_av iv) (txt "VPCs"); Some (txt ")" ++ NL)]) ++
    part (0 <? b_ngmic b + b_nlpc b)%Z ([start (txt "All: ") all (txt " (" ++ int_text (b_ngmic b + b_nlpc b + b_nvpc b) ++ txt " cuts")] ++
      part hasG [active (ci_aa ig) (txt "GMICs")] ++ part hasV [active (ci_aa iv) (txt "VPCs")] ++ [Some (txt ")" ++ NL)]) ++
    part (finite (b_best b)) [start (txt "Disjunctive lb: ") (b_best b) NL] ++
    part (finite (b_worst b)) [start (txt "Disjunctive ub: ") (b_worst b) NL] ++
    part (finite (b_ip b)) [start (txt "IP: ") (b_ip b) NL]).

(** Lines 1070-1142.  [solver]: "Gur", "Cpx", "Cbc" or "" (1090-1097). *)
Definition BB_INF : Q := inject_Z (10 ^ 50).
(** analysis.cpp:1099-1142: one line of the table. *)
Definition bb_row (F : clib) (name : text) (i : bbinfo) : option text :=
  let num x := string_num (pf_f F) x BB_INF 15 2 in let int z := Some (string_int z 15) in
  cats (map put ([Some (pad 10 name); num (bb_obj i); num (bb_bound i); int (bb_iters i); int (bb_nodes i); int (bb_root_passes i); num (bb_first_cut_pass i);
    num (bb_last_cut_pass i); num (bb_root_time i); num (bb_last_sol_time i); num (bb_time i); Some NL])).
(** analysis.cpp:1070-1142. *)
Definition bb_report (F : clib) (runs mode : Z) (solver : text) (no my all : summary) : option text :=
  if (runs =? 0)%Z then Some []
  else
    let no_cuts := (0 <? Z.rem mode 10)%Z in
    let vpcs := (0 <? Z.quot (Z.rem mode 100 - Z.rem mode 10) 10)%Z && (0 <? sm_num_cuts my)%Z in
    let gmics := (0 <? Z.quot (Z.rem mode 1000 - Z.rem mode 100) 100)%Z && (0 <? sm_num_cuts all)%Z in
    if negb no_cuts && negb vpcs && negb gmics then Some []
    else cats ([put' (NL ++ txt "## Branch-and-bound results ##" ++ NL); put' (pad 10 [])] ++
      map (fun t => put' (pad 15 t)) [txt "Obj"; txt "Bound"; txt "Iters"; txt "Nodes"; txt "Root passes"; txt "First cut pass"; txt "Last cut pass"; txt "Root time"; txt "Last sol time"; txt "Time"] ++ [put' NL] ++
      (if no_cuts then [bb_row F solver (sm_avg no)] else []) ++
      (if vpcs then [bb_row F (solver ++ txt "V") (sm_avg my)] else []) ++
      (if gmics then [bb_row F (solver ++ txt "V+G") (sm_avg all)] else [])).
