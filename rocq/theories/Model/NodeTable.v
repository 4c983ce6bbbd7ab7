(** The table of node statistics: printNodeStatistics of src/branch/VPCEventHandler.cpp:190-282, character by character. *)
From Coq Require Import String.
From Verif Require Export Prelude Model.Tolerance Model.Names Model.LogRow Model.Report.
#[local] Open Scope Q_scope.
#[local] Open Scope list_scope.

(** VPCEventHandler.hpp:26-46 [NodeStatistics]: the members that are printed; changed_bounds is given as its text. *)
Record nrow := { nr_id : Z; nr_parent : Z; nr_depth : Z; nr_var : Z; nr_branch : Z; nr_way : Z; nr_obj : Q; nr_value : Q; nr_lb : Q; nr_ub : Q;
                 nr_orig : Z; nr_number : Z; nr_intobj : Q; nr_found : bool; nr_status : text; nr_bounds : text }.

(** utility.hpp:292-332 [stringValue] of a double with a format "%.pf" ("%-1.3f": a width of 1 changes nothing), the default
    infinity, and neither of the two numbers of digits. *)
Definition string_fixed (F : clib) (p : nat) (x : Q) : text :=
  if isInfinity x DBL_MAX EPS7 then snprintf 500 (txt "'inf'")
  else if isNegInfinity x (- DBL_MAX) EPS7 then snprintf 500 (txt "'-inf'")
  else snprintf 500 (pf_f F p x).
(** printf's "% -*d" (external): a blank in place of a plus sign, padded on the right. *)
Definition signed_cell (w : nat) (z : Z) : text := pad (Z.of_nat w) ((if (z <? 0)%Z then [] else [" "%char]) ++ int_text z).
(** VPCEventHandler.cpp:202-208 and 250-256: WIDTH and the widths of the columns of doubles. *)
Definition WIDTH : nat := 10.
(** VPCEventHandler.cpp:204-208, 252-256: OBJ_WIDTH, INT_OBJ_WIDTH, VAL_WIDTH. *)
Definition wide (t : text) : nat := if Nat.leb (WIDTH - 1) (List.length t) then List.length t + 2 else WIDTH.
(** VPCEventHandler.cpp:210-212, 258-260: LB_WIDTH, UB_WIDTH. *)
Definition narrow (t : text) : nat := List.length t + 2.

(** VPCEventHandler.cpp:214-233: the header, for the first node. *)
Definition table_header (F : clib) (r : nrow) (print_bounds : bool) : text :=
  let ow := wide (string_fixed F 3 (nr_obj r)) in
  let iw := wide (string_fixed F 3 (nr_intobj r)) in
  let vw := wide (string_fixed F 3 (nr_value r)) in
  let lw := narrow (string_fixed F 0 (nr_lb r)) in
  let uw := narrow (string_fixed F 0 (nr_ub r)) in
  concat [name_cell WIDTH (txt "id"); name_cell WIDTH (txt "parent"); name_cell WIDTH (txt "depth"); name_cell WIDTH (txt "variable");
          name_cell WIDTH (txt "branch"); name_cell WIDTH (txt "way"); name_cell ow (txt "obj"); name_cell vw (txt "value");
          name_cell lw (txt "lb"); name_cell uw (txt "ub"); name_cell WIDTH (txt "orig_id"); name_cell WIDTH (txt "number");
          name_cell iw (txt "int_obj"); name_cell WIDTH (txt "int_found"); name_cell WIDTH (txt "status")]
  ++ (if print_bounds then name_cell WIDTH (txt "bounds") else []) ++ NL.
(** VPCEventHandler.cpp:240-282: one node. *)
Definition table_row (F : clib) (r : nrow) (print_bounds : bool) : text :=
  let obj := string_fixed F 3 (nr_obj r) in
  let int_obj := string_fixed F 3 (nr_intobj r) in
  let val := string_fixed F 3 (nr_value r) in
  let lb := string_fixed F 0 (nr_lb r) in
  let ub := string_fixed F 0 (nr_ub r) in
  concat [signed_cell WIDTH (nr_id r); signed_cell WIDTH (nr_parent r); signed_cell WIDTH (nr_depth r); signed_cell WIDTH (nr_var r); signed_cell WIDTH (nr_branch r);
          name_cell WIDTH (if (nr_way r <=? 0)%Z then txt "down" else txt "up"); name_cell (wide obj) obj; name_cell (wide val) val;
          name_cell (narrow lb) lb; name_cell (narrow ub) ub; signed_cell WIDTH (nr_orig r); signed_cell WIDTH (nr_number r);
          name_cell (wide int_obj) int_obj; signed_cell WIDTH (if nr_found r then 1 else 0); name_cell WIDTH (nr_status r)]
  ++ (if print_bounds then pad (Z.of_nat WIDTH) (nr_bounds r) else []) ++ NL.
(** VPCEventHandler.cpp:196-237: the table; nothing for no node. *)
Definition node_table (F : clib) (rs : list nrow) (print_bounds : bool) : text :=
  match rs with
  | [] => []
  | r :: _ => table_header F r print_bounds ++ concat (map (fun r => table_row F r print_bounds) rs)
  end.
