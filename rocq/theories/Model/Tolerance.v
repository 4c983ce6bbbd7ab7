(** Tolerance comparisons of include/common/utility.hpp:218-253.
    Doubles are modelled as exact rationals (simplification: rounding of [val2 - eps]
    and the values inf/NaN are absent here; [ToleranceFloat] below models the same
    functions on IEEE binary64). *)
From Verif Require Export Prelude.
From Coq Require Import Floats.SpecFloat.

(** utility.hpp:219-221 [lessThanVal]: [val1 <= val2 - eps]. *)
Definition lessThanVal (val1 val2 eps : Q) : bool := Qle_bool val1 (val2 - eps).

(** utility.hpp:224-226 [greaterThanVal]: [val1 >= val2 + eps]. *)
Definition greaterThanVal (val1 val2 eps : Q) : bool := Qle_bool (val2 + eps) val1.

(** utility.hpp:229-231 [isVal]: [|val1 - val2| < eps]. *)
Definition isVal (val1 val2 eps : Q) : bool := Qltb (Qabs (val1 - val2)) eps.

(** utility.hpp:234-236 [isZero]. *)
Definition isZero (val eps : Q) : bool := isVal val 0 eps.

(** utility.hpp:245-247 [isInfinity]. *)
Definition isInfinity (val infinity eps : Q) : bool :=
  Qle_bool infinity val || negb (lessThanVal val infinity eps).

(** utility.hpp:251-253 [isNegInfinity]. *)
Definition isNegInfinity (val neg_infinity eps : Q) : bool :=
  Qle_bool val neg_infinity || negb (greaterThanVal val neg_infinity eps).

(** Default tolerance argument [eps = 1e-7], utility.hpp:219,224,229,234,245,251. *)
Definition EPS7 : Q := 1 # 10000000.

(** Default [neg_infinity = __DBL_MIN__] of [isNegInfinity] (utility.hpp:251): the gcc
    macro is the smallest positive normalised double, 2^-1022. *)
Definition DBL_MIN : Q := 1 # (2 ^ 1022).

(** Default [infinity = __DBL_MAX__] of [isInfinity] (utility.hpp:245):
    (2 - 2^-52) * 2^1023. *)
Definition DBL_MAX : Q := ((2 ^ 53 - 1) * 2 ^ 971)%Z # 1.

(** Calls with the default arguments, as made at PRLP.cpp:304,872,1064, CutHelper.cpp:72,
    SolverHelper.cpp:529. *)
Definition isNegInfinity_default (val : Q) : bool := isNegInfinity val DBL_MIN EPS7.
(** include/common/utility.hpp:245-247 with its default arguments. *)
Definition isInfinity_default (val : Q) : bool := isInfinity val DBL_MAX EPS7.

(** ** The same functions on IEEE-754 binary64 (round to nearest even), using the
    executable specification of floats in Coq's standard library (no axioms). *)
Definition fl := spec_float.
(** binary64 subtraction. *)
Definition fl_sub (a b : fl) : fl := SFsub 53 1024 a b.
(** binary64 addition. *)
Definition fl_add (a b : fl) : fl := SFadd 53 1024 a b.
(** binary64 comparison <=. *)
Definition fl_le (a b : fl) : bool := SFleb a b.
(** binary64 comparison <. *)
Definition fl_lt (a b : fl) : bool := SFltb a b.

(** utility.hpp:219-221 on doubles. *)
Definition lessThanVal_fl (val1 val2 eps : fl) : bool := fl_le val1 (fl_sub val2 eps).
(** utility.hpp:224-226 on doubles. *)
Definition greaterThanVal_fl (val1 val2 eps : fl) : bool := fl_le (fl_add val2 eps) val1.
(** utility.hpp:229-231 on doubles. *)
Definition isVal_fl (val1 val2 eps : fl) : bool := fl_lt (SFabs (fl_sub val1 val2)) eps.

(** The double nearest to 1e-7: 0x1.ad7f29abcaf48p-24. *)
Definition EPS7_fl : fl := S754_finite false 7555786372591432 (-76).
