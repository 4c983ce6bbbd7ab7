(** What a run of the executable promises: the optimum of a problem, when a solution counts as integral, how the log file is read. *)
From Coq Require Import String.
From Verif Require Export Model.Parameters Model.MainProgram Spec.LPSpec Spec.LogSpec Spec.PreSpec.
#[local] Open Scope Q_scope.
#[local] Open Scope string_scope.
#[local] Open Scope list_scope.

(** [v] is the optimal value over the points that are feasible and integral. *)
Definition mip_optimum (i : inst) (v : Q) : Prop :=
  let ok x := feasible (i_lp i) x /\ integral (i_int i) (ncols (i_lp i)) x in
  (exists x, ok x /\ value i x == v) /\ forall x, ok x -> v <= value i x.
(** The solver tells the truth about the relaxation. *)
Definition relaxation_solved (f : first) : Prop :=
  feasible (i_lp (f_inst f)) (f_sol f) /\ value (f_inst f) (f_sol f) == f_value f /\
  forall x, feasible (i_lp (f_inst f)) x -> f_value f <= value (f_inst f) x.
(** A number is an integer up to the tolerance. *)
Definition near (tol x : Q) : Prop := exists k : Z, x == inject_Z k \/ Qabs (x - inject_Z k) < tol.

(** The lines of a file, and what stands after the last line end. *)
Fixpoint split_lines (t : list tok) : list (list field) * list field :=
  match t with
  | [] => ([], [])
  | Newline :: r => ([] :: fst (split_lines r), snd (split_lines r))
  | Cell f :: r => match split_lines r with (l :: ls, u) => ((f :: l) :: ls, u) | ([], u) => ([], f :: u) end
  end.
(** A line that ends with an error message. *)
Definition error_line (msg : string) (l : list field) : Prop := exists before, l = before ++ [TextF "||"; TextF msg].
(** The names above the columns of a run that generates cuts. *)
Definition cut_header (P : params) : list string := header (map fst (param_list P)) overall_times.
(** [l] is the row of the data [L] under the header [H]. *)
Definition row_of (H : list string) (L : log) (l : list field) : Prop :=
  List.length l = List.length H /\ forall i n f, nth_error H i = Some n -> nth_error l i = Some f -> reads L n f.
