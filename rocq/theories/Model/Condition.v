(** Condition numbers of the current basis (src/test/condition_number.cpp).  What is asked of the solver is an argument: whether a basis
    is available, the columns (getMatrixByCol), the basis statuses (getBasisStatus; 1 = basic), the columns of the inverse of the basis
    (getBInvCol), LAPACK's singular values (dgesvd).  Messages and the memory not freed on early returns are left out. *)
From Verif Require Export Prelude.
From Coq Require Import Reals Qreals.

(** condition_number.cpp:13-154. *)
Record basisview := { v_avail : bool; v_m : nat; v_n : nat; v_col : nat -> packed; v_cstat : nat -> Z; v_rstat : nat -> Z }.

(** Lines 100-113 and 119-130: the largest sum of absolute values. *)
Definition larger (cur new : Q) : Q := if Qltb cur new then new else cur.
(** condition_number.cpp:100-113. *)
Definition norm1_struct (v : basisview) : Q :=
  fold_left (fun cur i => if (v_cstat v i =? 1)%Z then larger cur (Qsumf (fun e => Qabs (snd e)) (v_col v i)) else cur) (seq 0 (v_n v)) 0.
(** condition_number.cpp:119-130. *)
Definition norm1_inverse (v : basisview) (binv : nat -> nat -> Q) : Q :=
  fold_left (fun cur i => larger cur (Qsumf (fun j => Qabs (binv i j)) (seq 0 (v_m v)))) (seq 0 (v_m v)) 0.
(** compute_condition_number_norm1, lines 85-138. *)
Definition compute_condition_number_norm1 (v : basisview) (binv : nat -> nat -> Q) : Q :=
  if negb (v_avail v) then 0
  else let s := norm1_struct v in (if Qltb s 1 then 1 else s) * norm1_inverse v binv.

(** Lines 27-50: the basis as an array of m*m numbers, by column; [None]: written outside the array. *)
Definition write (m : nat) (arr : option (nat -> Q)) (k : nat) (x : Q) : option (nat -> Q) :=
  match arr with
  | None => None
  | Some a => if Nat.ltb k (m * m) then Some (fun j => if Nat.eqb j k then x else a j) else None
  end.
(** condition_number.cpp:27-40: a basic structural column. *)
Definition fill_struct (v : basisview) (acc : option (nat -> Q) * nat) (i : nat) : option (nat -> Q) * nat :=
  if (v_cstat v i =? 1)%Z
  then (fold_left (fun a e => write (v_m v) a (snd acc * v_m v + fst e)%nat (snd e)) (v_col v i) (fst acc), S (snd acc))
  else acc.
(** condition_number.cpp:41-50: a basic artificial. *)
Definition fill_artif (v : basisview) (acc : option (nat -> Q) * nat) (i : nat) : option (nat -> Q) * nat :=
  if (v_rstat v i =? 1)%Z then (write (v_m v) (fst acc) (snd acc * v_m v + i)%nat 1, S (snd acc)) else acc.
(** condition_number.cpp:27-50. *)
Definition basis_array (v : basisview) : option (nat -> Q) :=
  fst (fold_left (fill_artif v) (seq 0 (v_m v)) (fold_left (fill_struct v) (seq 0 (v_n v)) (Some (fun _ => 0), 0%nat))).
(** compute_condition_number_norm2, lines 17-82.  [svd]: what dgesvd answers for an array: info of the two calls and the singular
    values.  [None]: outside an array (without rows sv[m - 1] is). *)
Definition compute_condition_number_norm2 (v : basisview) (svd : (nat -> Q) -> Z * Z * list R) : option R :=
  if negb (v_avail v) then Some 0%R
  else match basis_array v with
       | None => None
       | Some a =>
           let '(info1, info2, sv) := svd a in
           if negb (info1 =? 0)%Z then Some 0%R
           else if negb (info2 =? 0)%Z then Some 0%R
           else match nth_error sv 0, v_m v with
                | Some s0, S k => match nth_error sv k with Some s1 => Some (s0 / s1)%R | None => None end
                | _, _ => None
                end
       end.
(** compute_condition_number, lines 141-154. *)
Definition compute_condition_number (v : basisview) (binv : nat -> nat -> Q) (svd : (nat -> Q) -> Z * Z * list R) (norm : Z) : option R :=
  if ((norm <? 1) || (2 <? norm))%Z then Some 0%R
  else if (norm =? 1)%Z then Some (Q2R (compute_condition_number_norm1 v binv))
  else compute_condition_number_norm2 v svd.
