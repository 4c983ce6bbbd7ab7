(** scaleCut (src/cut/CutHelper.cpp 165-202, never called inside the project) and getRowTwoNorm (src/utility/utility.cpp 636-646).
    Doubles are rationals, the root is real; the products by powers of ten are exact. *)
From Coq Require Import Reals.
From Verif Require Export Prelude Model.Tolerance Model.LP Model.CutHelper Model.PrintVec Model.Parallel.
#[local] Open Scope Q_scope.

(** static_cast<int> of a finite double that fits: towards zero. *)
Definition cast_int (q : Q) : Z := Z.quot (Qnum q) (Zpos (Qden q)).
(** CutHelper.cpp:167-202.  [lg x]: std::log10(x) converted to int, for positive x; for the smallest magnitude 0 (no coefficient above EPS)
    the logarithm is -infinity and its conversion is undefined: [None]. *)
Definition scaleCut (lg : Q -> Z) (EPS : Q) (c : cut) : option cut :=
  let '(mn, mx0) := minmax_loop EPS (crow c) 0 0 in
  let absRHS := Qabs (crhs c) in
  let mx := if Qltb mx0 absRHS then absRHS else mx0 in
  if Qle_bool mn 0 || Qle_bool mx 0 then None
  else
    let avg := (1#2) * inject_Z (lg mn + lg mx) in
    let scale_exp := if Qltb avg (- (1#4)) then (1 - cast_int (avg + (1#4)))%Z else 0%Z in
    let scale := inject_Z (10 ^ scale_exp) in
    Some {| crow := map (fun e => (fst e, snd e * scale)) (crow c); crhs := crhs c * scale |}.

(** CoinPackedMatrix (external): its storage by arrays, with possible gaps between the major vectors. *)
Record storage := { m_start : list nat; m_length : list nat; m_index : list nat; m_elem : list Q }.
(** utility.cpp:639-645: the sum before the root; [None]: a read outside the arrays. *)
Fixpoint sum_squares (m : storage) (i n : nat) (prod : Q) : option Q :=
  match n with
  | O => Some prod
  | S k => match nth_error (m_elem m) i with None => None | Some e => sum_squares m (S i) k (prod + e * e) end
  end.
(** utility.cpp:636-646 [getRowTwoNorm]. *)
Definition getRowTwoNorm (m : storage) (row : nat) : option R :=
  match nth_error (m_start m) row, nth_error (m_length m) row with
  | Some s, Some n => match sum_squares m s n 0 with None => None | Some p => Some (sqrt (Q2R p)) end
  | _, _ => None
  end.
