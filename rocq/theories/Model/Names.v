(** The textual description of a disjunction ("name of the cut generating set"):
    src/disjunction/Disjunction.cpp:267-356, src/disjunction/SplitDisjunction.cpp:281-299 and the
    calls in src/branch/VPCEventHandler.cpp:1122-1130, 1278-1283.
    [None] stands for undefined behaviour: converting a double outside the range of int with
    static_cast<int>, or shrinking an empty string below zero. *)
From Verif Require Export Prelude Model.TextUtil.
From Coq Require Export Qround.

(** ** Decimal printing (std::to_string). *)

(** Digits of a natural number, most significant first; [fuel] bounds the number of digits. *)
(** std::to_string (external): one digit. *)
Definition digit_char (z : Z) : ascii := ascii_of_nat (48 + Z.to_nat z).
(** std::to_string (external): decimal digits, most significant first; [fuel] bounds their number. *)
Fixpoint digits_fuel (fuel : nat) (z : Z) : text :=
  match fuel with
  | O => [digit_char (z mod 10)]
  | S f => if (z <? 10)%Z then [digit_char z] else digits_fuel f (z / 10) ++ [digit_char (z mod 10)]
  end.
(** std::to_string (external) of a non-negative number. *)
Definition digits (z : Z) : text := digits_fuel (Z.to_nat (Z.log2 z + 1)) z.

(** std::to_string(int). *)
(** std::to_string (external), used at Disjunction.cpp:291-330. *)
Definition int_text (z : Z) : text :=
  if (z <? 0)%Z then "-"%char :: digits (- z) else digits z.

(** Six digits with leading zeros. *)
(** printf's "%f" (external). *)
Definition six (z : Z) : text :=
  map digit_char [ (z / 100000) mod 10; (z / 10000) mod 10; (z / 1000) mod 10;
                   (z / 100) mod 10; (z / 10) mod 10; z mod 10 ]%Z.
(** Nearest integer, ties to even (printf rounds the exact binary value this way). *)
(** printf's "%f" (external). *)
Definition round_even (q : Q) : Z :=
  let f := Qfloor q in
  let d := (q - inject_Z f)%Q in
  if Qltb d (1#2) then f
  else if Qltb (1#2) d then (f + 1)%Z
  else if Z.even f then f else (f + 1)%Z.
(** std::to_string(double) = printf "%f": six decimals.  Simplification: the sign is that of the
    value, so a negative zero is not distinguished. *)
(** std::to_string (external), used at Disjunction.cpp:312-328. *)
Definition double_text (q : Q) : text :=
  let m := round_even (Qabs q * 1000000) in
  (if Qltb q 0 then ["-"%char] else []) ++ digits (m / 1000000) ++ "."%char :: six (m mod 1000000).

(** static_cast<int>(q): towards zero; outside int it is undefined. *)
Definition INT_MIN : Z := - 2 ^ 31.
(** The largest int (32 bits). *)
Definition INT_MAX : Z := 2 ^ 31 - 1.
(** Conversion of a double to an integer: towards zero. *)
Definition truncate (q : Q) : Z := if Qltb q 0 then (- Qfloor (- q))%Z else Qfloor q.
(** static_cast<int> of a double, Disjunction.cpp:312-328; [None]: out of range, undefined. *)
Definition cast_int (q : Q) : option Z :=
  let z := truncate q in
  if (INT_MIN <=? z)%Z && (z <=? INT_MAX)%Z then Some z else None.

Definition NAME_EPS : Q := 1 # 10000000.     (* Disjunction.cpp:307, 1e-7 *)
(** Disjunction.cpp:312-317 and 324-328: integers as int, everything else with six decimals. *)
Definition near_int (q : Q) : bool :=
  Qltb (Qabs (q - inject_Z (Qfloor q))) NAME_EPS || Qltb (Qabs (q - inject_Z (Qceiling q))) NAME_EPS.
(** Disjunction.cpp:312-317 and 324-328. *)
Definition number_text (q : Q) : option text :=
  if near_int q then option_map int_text (cast_int q) else Some (double_text q).

(** ** Disjunction.cpp:270-281: one term given by its name. *)
Definition setCgsName_term (name term : text) : text :=
  match term with
  | [] => name
  | _ => (match name with [] => [] | _ => name ++ txt " V " end) ++ txt "(" ++ term ++ txt ")"
  end.

(** ** Disjunction.cpp:291-330: one inequality; [co] lists (index, coefficient). *)
Definition coef_text (ic : Z * Q) : option text :=
  let a := Qabs (snd ic) in
  let sign := if Qltb 0 (snd ic) then txt "+" else txt "-" in
  if Qltb (Qabs (a - 1)) NAME_EPS then Some (sign ++ txt "x" ++ int_text (fst ic))
  else match number_text a with
       | None => None
       | Some t => Some (sign ++ t ++ txt " " ++ txt "x" ++ int_text (fst ic))
       end.
(** Disjunction.cpp:306-322: the loop over the coefficients. *)
Fixpoint coefs_text (co : list (Z * Q)) : option text :=
  match co with
  | [] => Some []
  | ic :: r => match coef_text ic, coefs_text r with
               | Some a, Some b => Some (a ++ b)
               | _, _ => None
               end
  end.
(** The common opening of both functions, Disjunction.cpp:297-305 and 342-350 (the name is shrunk
    by its last character when appending). *)
Definition opening (name : text) (append : bool) : text :=
  (match name with
   | [] => []
   | _ => if append then removelast name ++ txt "; " else name ++ txt " V "
   end) ++ (if append then [] else txt "(").
(** One inequality: indices with coefficients, and right-hand side. *)
Record ineq := { iq_co : list (Z * Q); iq_rhs : Q }.
(** Disjunction.cpp:291-330. *)
Definition setCgsName_ineq (name : text) (i : ineq) (append : bool) : option text :=
  match iq_co i with
  | [] => Some name
  | _ =>
      match coefs_text (iq_co i), number_text (iq_rhs i) with
      | Some c, Some r => Some (opening name append ++ c ++ txt " >= " ++ r ++ txt ")")
      | _, _ => None
      end
  end.

(** ** Disjunction.cpp:335-356: several inequalities. *)
Fixpoint ineq_loop (name : text) (first : bool) (l : list ineq) : option text :=
  match l with
  | [] => Some name
  | i :: r => match setCgsName_ineq name i (negb first) with
              | None => None
              | Some n => ineq_loop n false r
              end
  end.
(** Disjunction.cpp:335-356. *)
Definition setCgsName_ineqs (name : text) (l : list ineq) (append : bool) : option text :=
  match l with
  | [] => Some name
  | _ => option_map (fun n => n ++ txt ")") (ineq_loop (opening name append) true l)
  end.

(** ** SplitDisjunction.cpp:281-299. *)
Definition split_setCgsName (name : text) (var : Z) (val : Q) : option text :=
  if (var <? 0)%Z then Some name
  else match cast_int (inject_Z (Qfloor val)), cast_int (inject_Z (Qceiling val)) with
       | Some f, Some c =>
           let n1 := setCgsName_term name (txt "x" ++ int_text var ++ txt " <= " ++ int_text f) in
           Some (setCgsName_term n1 (txt "x" ++ int_text var ++ txt " >= " ++ int_text c))
       | _, _ => None
       end.

(** ** Names of partial branch-and-bound disjunctions. *)

(** VPCEventHandler.cpp:1122-1130 (and the parents' inequalities built at 1330-1338): the branching
    inequality, then the bounds changed on the way to the parent.  A bound change is
    (variable, which bound (<= 0: lower), value). *)
Definition branch_ineq (var way : Z) (value : Q) : ineq :=
  let c := if (way <=? 0)%Z then (- (1))%Q else 1%Q in
  {| iq_co := [(var, c)]; iq_rhs := c * value |}.
(** VPCEventHandler.cpp:1330-1338: a changed bound as an inequality. *)
Definition change_ineq (ch : Z * Z * Q) : ineq :=
  let c := if (snd (fst ch) <=? 0)%Z then 1%Q else (- (1))%Q in
  {| iq_co := [(fst (fst ch), c)]; iq_rhs := c * snd ch |}.
(** VPCEventHandler.cpp:1122-1130. *)
Definition tree_setCgsName (name : text) (var way : Z) (value : Q) (parents : list (Z * Z * Q)) : option text :=
  match setCgsName_ineq name (branch_ineq var way value) false with
  | None => None
  | Some n => setCgsName_ineqs n (map change_ineq parents) true
  end.
(** VPCEventHandler.cpp:1278-1283: the term for the saved integer solution. *)
Definition feasible_setCgsName (name : text) : text := setCgsName_term name (txt "feasSol0").
