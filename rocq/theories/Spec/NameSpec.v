(** How a reader understands the description of a disjunction: terms in parentheses separated by
    " V ", inequalities of a term separated by "; ", each "+2 x0-x3 >= 5". *)
From Verif Require Import Prelude Model.TextUtil Model.Names Spec.TextSpec.

Fixpoint join (sep : text) (l : list text) : text :=
  match l with
  | [] => []
  | [a] => a
  | a :: r => a ++ sep ++ join sep r
  end.
Definition paren (t : text) : text := "("%char :: t ++ [")"%char].

(** Unsigned and signed decimal numerals, no blanks. *)
Definition unsigned (t : text) (z : Z) : Prop :=
  t <> [] /\ Forall (fun c => (48 <= nat_of_ascii c <= 57)%nat) t /\ z = dec_value t.
Definition signed (t : text) (z : Z) : Prop :=
  unsigned t z \/ exists u w, t = "-"%char :: u /\ unsigned u w /\ z = (- w)%Z.
(** A number with a decimal point: sign, integer part, fraction. *)
Definition decimal (t : text) (v : Q) : Prop :=
  exists sg ip fp i f,
    t = sg ++ ip ++ "."%char :: fp /\ unsigned ip i /\ unsigned fp f /\
    let m := (inject_Z i + inject_Z f / inject_Z (10 ^ Z.of_nat (length fp)))%Q in
    (sg = [] /\ (v == m)%Q \/ sg = ["-"%char] /\ (v == - m)%Q).

(** "+3 x2", "-x7", ...: sign, magnitude unless it is one, variable. *)
Definition coef_reads (t : text) (ic : Z * Z) : Prop :=
  exists sg mag idx,
    t = sg :: mag ++ "x"%char :: idx /\ unsigned idx (fst ic) /\
    (sg = "+"%char /\ (0 < snd ic)%Z \/ sg = "-"%char /\ (snd ic <= 0)%Z) /\
    (mag = [] /\ Z.abs (snd ic) = 1%Z \/
     exists ds, mag = ds ++ [" "%char] /\ unsigned ds (Z.abs (snd ic)) /\ Z.abs (snd ic) <> 1%Z).
Fixpoint coefs_read (t : text) (cs : list (Z * Z)) : Prop :=
  match cs with
  | [] => t = []
  | ic :: r => exists a b, t = a ++ b /\ coef_reads a ic /\ coefs_read b r
  end.
(** An inequality: coefficients by variable, right-hand side. *)
Definition plain : Type := list (Z * Z) * Z.
Definition ineq_reads (t : text) (i : plain) : Prop :=
  exists a b, t = a ++ txt " >= " ++ b /\ coefs_read a (fst i) /\ signed b (snd i).
Definition term_reads (t : text) (l : list plain) : Prop :=
  exists ts, Forall2 ineq_reads ts l /\ t = paren (join (txt "; ") ts).
Definition name_reads (t : text) (d : list (list plain)) : Prop :=
  exists ts, Forall2 term_reads ts d /\ t = join (txt " V ") ts.

(** ** Integer data as arguments of the naming functions *)
Definition in_int (z : Z) : Prop := (INT_MIN <= z <= INT_MAX)%Z.
Definition to_ineq (p : plain) : ineq :=
  {| iq_co := map (fun ic => (fst ic, inject_Z (snd ic))) (fst p); iq_rhs := inject_Z (snd p) |}.
Definition plain_ok (p : plain) : Prop :=
  fst p <> [] /\ Forall (fun ic => (0 <= fst ic)%Z /\ in_int (Z.abs (snd ic))) (fst p) /\ in_int (snd p).
(** A term built with one call per inequality: the first opens it, the others are appended. *)
Definition term_calls (name : text) (l : list ineq) : option text :=
  ineq_loop name true l.
Fixpoint all_calls (name : text) (d : list (list ineq)) : option text :=
  match d with
  | [] => Some name
  | l :: r => match term_calls name l with None => None | Some n => all_calls n r end
  end.
