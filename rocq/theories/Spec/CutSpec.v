(** Specification vocabulary for V-polyhedral cuts. *)
From Verif Require Import Prelude Model.LP Model.PRCollection Model.Setup Spec.LPSpec.

(** Coefficient of nonbasic index [c] in a PRLP solution: PRLP column [t] stands for index
    [nz t], or for index [t] itself when no columns were removed. *)
Definition nbcoef (nz : list nat) (coeff : nat -> Q) (c : nat) : Q :=
  match nz with
  | [] => coeff c
  | _ => Qsumf (fun t => if Nat.eqb (nth t nz O) c then coeff t else 0) (seq 0 (length nz))
  end.

(** [alpha] satisfies every point and ray constraint:  alpha.p >= rhs*scale,  alpha.r >= 0. *)
Definition prlp_feasible (n : nat) (scale : Q) (ks : list prconstr) (alpha : nat -> Q) : Prop :=
  forall k, In k ks ->
    pr_rhs k * scale <= Qsumf (fun c => alpha c * pval (pr_vec k) c) (seq 0 n).
