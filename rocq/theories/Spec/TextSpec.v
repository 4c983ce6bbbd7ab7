(** Specification vocabulary for texts: decimal numerals, letters up to case, file-name parts. *)
From Verif Require Import Prelude Model.TextUtil.

(** Value of a sequence of decimal digits: each digit times its power of ten. *)
Fixpoint dec_value (ds : text) : Z :=
  match ds with
  | [] => 0
  | d :: r => (Z.of_nat (nat_of_ascii d) - 48) * 10 ^ Z.of_nat (length r) + dec_value r
  end%Z.

(** [s] is an optionally signed decimal numeral for [z], possibly after blanks. *)
Definition numeral (s : text) (z : Z) : Prop :=
  exists ws sg ds,
    s = ws ++ sg ++ ds /\
    Forall (fun c => c = " "%char \/ (9 <= nat_of_ascii c <= 13)%nat) ws /\
    Forall (fun c => (48 <= nat_of_ascii c <= 57)%nat) ds /\ ds <> [] /\
    ((sg = [] \/ sg = ["+"%char]) /\ z = dec_value ds \/ sg = ["-"%char] /\ z = (- dec_value ds)%Z).

(** The same letter up to case (A-Z = 65-90, a-z = 97-122), or the same character. *)
Definition same_upto_case (a b : ascii) : Prop :=
  a = b \/ ((97 <= nat_of_ascii a <= 122)%nat /\ nat_of_ascii a = (nat_of_ascii b + 32)%nat)
        \/ ((97 <= nat_of_ascii b <= 122)%nat /\ nat_of_ascii b = (nat_of_ascii a + 32)%nat).

Definition no_char (c : ascii) (s : text) : Prop := ~ In c s.
Definition no_slash (s : text) : Prop := no_char "/"%char s /\ no_char (ascii_of_nat 92) s.
