(** How a reader understands a printed vector: the pairs "(index, value)" in it, wherever they stand. *)
From Coq Require Import String.
From Verif Require Import Prelude Model.Tolerance Model.TextUtil Model.Names Spec.TextSpec Spec.NameSpec Model.Report Spec.ReportSpec Model.PrintVec.
#[local] Open Scope Q_scope.
#[local] Open Scope list_scope.

(** Reading position: outside parentheses, in the first part, in the second part (after the comma). *)
Inductive place := Outside | InFirst (cur : text) | InSecond (first cur : text).
(** The pairs of a text; blanks inside parentheses are skipped. *)
Fixpoint pairs_at (p : place) (t : text) : list (text * text) :=
  match t with
  | [] => []
  | c :: r =>
      match p with
      | Outside => if Ascii.eqb c "("%char then pairs_at (InFirst []) r else pairs_at Outside r
      | InFirst cur => if Ascii.eqb c ","%char then pairs_at (InSecond cur []) r else if Ascii.eqb c " "%char then pairs_at p r else pairs_at (InFirst (cur ++ [c])) r
      | InSecond a cur => if Ascii.eqb c ")"%char then (a, cur) :: pairs_at Outside r else if Ascii.eqb c " "%char then pairs_at p r else pairs_at (InSecond a (cur ++ [c])) r
      end
  end.
Definition pairs_in (t : text) : list (text * text) := pairs_at Outside t.
(** A value correct to six digits. *)
Definition six_digits (v : Q) (t : text) : Prop := exists w, number t w /\ Qabs (w - v) <= (1 # 200000) * Qabs v.
(** A whole number is shown exactly, another value to six digits. *)
Definition whole (v : Q) : Prop := exists z, v == inject_Z z.
Definition exact_or_six (v : Q) (t : text) : Prop := (forall z, v == inject_Z z -> signed t z) /\ (~ whole v -> six_digits v t).
(** The pairs of a text are these entries, in this order. *)
Definition tells (shows : Q -> text -> Prop) (t : text) (vec : packed) : Prop :=
  Forall2 (fun p iv => signed (fst p) (Z.of_nat (fst iv)) /\ shows (snd iv) (snd p)) (pairs_in t) vec.
(** The contract of printf's "%g": a number without blanks, correct to six digits. *)
Definition prints_six (pg : Q -> text) (v : Q) : Prop := six_digits v (pg v) /\ ~ In " "%char (pg v).
(** The lines of a text. *)
Fixpoint lines (t : text) : list text :=
  match t with
  | [] => [[]]
  | a :: r => if Ascii.eqb a (ascii_of_nat 10) then [] :: lines r
              else match lines r with [] => [[a]] | f :: l => (a :: f) :: l end
  end.
(** Every line ends with the end-of-line character, so nothing follows the last one. *)
Definition lines_of (t : text) : list text := removelast (lines t).
(** Element of a matrix. *)
Definition element (m : pmatrix) (r c : nat) (v : Q) : Prop :=
  if pm_col m then exists vec, nth_error (pm_major m) c = Some vec /\ In (r, v) vec
  else exists vec, nth_error (pm_major m) r = Some vec /\ In (c, v) vec.
Definition num_rows (m : pmatrix) : nat := if pm_col m then pm_minor m else List.length (pm_major m).
(** A statistic: a number correct to ten digits, or infinite. *)
Definition ten_digits (v : Q) (t : text) : Prop :=
  (known v -> exists w, number t w /\ Qabs (w - v) <= (1 # 2000000000) * Qabs v) /\ (DBL_MAX <= v -> t = txt "'inf'") /\ (v <= - DBL_MAX -> t = txt "'-inf'").
(** The contract of printf's "%.10g". *)
Definition prints_ten (p10 : Q -> text) (v : Q) : Prop :=
  (exists w, number (p10 v) w /\ Qabs (w - v) <= (1 # 2000000000) * Qabs v) /\ (List.length (p10 v) <= 400)%nat.
