(** Printing vectors, matrices and statistics, character by character: src/utility/debug.cpp:22-98 and src/utility/utility.cpp:19-43.
    [pg]: printf's "%g" (external); [p10]: printf's "%.10g" (external). *)
From Coq Require Import String.
From Verif Require Export Prelude Model.Tolerance Model.Names Model.LogRow Model.Report.
#[local] Open Scope Q_scope.
#[local] Open Scope list_scope.

(** The tab character in the formats, debug.cpp:30, 62-64 and utility.cpp:38. *)
Definition TAB : text := [ascii_of_nat 9].
(** debug.cpp:33: "(%d, %g)". *)
Definition pair_text (i : Z) (v : text) : text := txt "(" ++ int_text i ++ txt ", " ++ v ++ txt ")".
(** debug.cpp:28-34: the loop from element [k] on. *)
Fixpoint sparse_from (pg : Q -> text) (use_newline : bool) (k : nat) (vec : packed) : text :=
  match vec with
  | [] => []
  | iv :: r => (if use_newline then NL ++ TAB else if Nat.ltb 0 k then txt ", " else []) ++
               pair_text (Z.of_nat (fst iv)) (pg (snd iv)) ++ sparse_from pg use_newline (k + 1) r
  end.
(** debug.cpp:22-36 [printVector] of a packed vector. *)
Definition printVector (pg : Q -> text) (vec : packed) (use_newline : bool) : text :=
  (if use_newline then txt "Num elements is " ++ int_text (Z.of_nat (List.length vec)) ++ txt "." else []) ++
  sparse_from pg use_newline 0 vec ++ NL.
(** debug.cpp:39-42 [printVectors]. *)
Definition printVectors (pg : Q -> text) (vecs : list packed) (use_newline : bool) : text :=
  concat (map (fun vec => printVector pg vec use_newline) vecs).

(** debug.cpp:61-64: a value is a whole number iff its distance to its floor is 0; [None]: the conversion to int is undefined. *)
Definition dense_value (pg : Q -> text) (i : nat) (v : Q) : option text :=
  if negb (Qeq_bool (Qabs (v - inject_Z (Qfloor v))) 0) then Some (TAB ++ pair_text (Z.of_nat i) (pg v))
  else if (Qfloor v <? -2147483648)%Z || (2147483647 <? Qfloor v)%Z then None
  else Some (TAB ++ pair_text (Z.of_nat i) (int_text (Qfloor v))).
(** debug.cpp:53-65: the loop from entry [i] on (1e-7 is taken as the exact number). *)
Fixpoint dense_from (pg : Q -> text) (use_newline sparse_mode : bool) (i : nat) (vec : list Q) : option text :=
  match vec with
  | [] => Some []
  | v :: r =>
      if sparse_mode && Qltb (Qabs v) EPS7 then dense_from pg use_newline sparse_mode (i + 1) r
      else match dense_value pg i v, dense_from pg use_newline sparse_mode (i + 1) r with
           | Some t, Some u => Some ((if use_newline then NL else if Nat.ltb 0 i then txt ", " else []) ++ t ++ u)
           | _, _ => None
           end
  end.
(** debug.cpp:50-74 [printVector] of an array and of a std::vector. *)
Definition printVector_dense (pg : Q -> text) (vec : list Q) (use_newline sparse_mode : bool) : option text :=
  option_map (fun t => t ++ NL) (dense_from pg use_newline sparse_mode 0 vec).

(** CoinPackedMatrix (external): vectors along the major dimension, the other dimension. *)
Record pmatrix := { pm_col : bool; pm_major : list packed; pm_minor : nat }.
(** CoinPackedMatrix::reverseOrderedCopyOf (external), used at debug.cpp:85: vector [r] of the copy. *)
Definition reversed (m : pmatrix) (r : nat) : packed :=
  flat_map (fun cv => map (fun iv => (fst cv, snd iv)) (filter (fun iv => Nat.eqb (fst iv) r) (snd cv)))
           (combine (seq 0 (List.length (pm_major m))) (pm_major m)).
(** debug.cpp:82-89. *)
Definition matrix_rows (m : pmatrix) : list packed :=
  if pm_col m then map (reversed m) (seq 0 (pm_minor m)) else pm_major m.
(** debug.cpp:81-98 [printMatrix]. *)
Definition printMatrix (pg : Q -> text) (m : pmatrix) : text :=
  concat (map (fun ir => txt "Row " ++ int_text (Z.of_nat (fst ir)) ++ txt ": " ++ printVector pg (snd ir) false)
              (combine (seq 0 (List.length (matrix_rows m))) (matrix_rows m))).

(** utility.cpp:19-30 [getStatNames], with the positions of utility.hpp:149. *)
Definition stat_names : list text := map txt ["total"; "avg"; "stddev"; "min"; "max"; "num"; "num_nonzero"]%string.
(** utility.hpp:292-332 [stringValue] with the format "%.10g". *)
Definition string_10 (p10 : Q -> text) (x : Q) : text :=
  if isInfinity x DBL_MAX EPS7 then snprintf 500 (txt "'inf'")
  else if isNegInfinity x (- DBL_MAX) EPS7 then snprintf 500 (txt "'-inf'")
  else snprintf 500 (p10 x).
(** utility.cpp:36-41: the loop; [None]: reading past the end of the vector. *)
Fixpoint stats_from (p10 : Q -> text) (printNames : bool) (SEP : ascii) (names : list text) (stats : list Q) : option text :=
  match names, stats with
  | [], _ => Some []
  | _, [] => None
  | n :: names, x :: stats =>
      option_map (fun r => (if printNames then TAB ++ n ++ txt ": " else []) ++ string_10 p10 x ++ SEP :: r)
                 (stats_from p10 printNames SEP names stats)
  end.
(** utility.cpp:32-43 [printStats]. *)
Definition printStats (p10 : Q -> text) (stats : list Q) (printNames : bool) (SEP : ascii) : option text :=
  stats_from p10 printNames SEP stat_names stats.
