(** What the columns of the file with one line per round of cuts should show. *)
From Coq Require Import String.
From Verif Require Export Prelude Model.LP Spec.LPSpec Model.LogRow.
From Verif Require Import Model.TimeStats.
#[local] Open Scope Q_scope.
#[local] Open Scope string_scope.
#[local] Open Scope list_scope.

(** [v] is the smallest objective value of the relaxation with the cuts [l] added. *)
Definition objective (P : lp) (x : nat -> Q) : Q := Qsumf (fun j => obj P j * x j) (seq 0 (ncols P)).
Definition optimum_with (P : lp) (l : list cut) (v : Q) : Prop :=
  let ok x := feasible P x /\ Forall (fun c => satisfies_cut c x) l in
  (exists x, ok x /\ objective P x == v) /\ forall y, ok y -> v <= objective P y.
(** One round: its number (from 1), whether Gomory cuts are generated, the Gomory cuts and the VPCs of the rounds up to this one and of this
    one, and how long (clock ticks) each kind was generated and applied. *)
Record theround := { r_no : nat; r_gomory : bool; r_gm_upto : list cut; r_vp_upto : list cut; r_gm : list cut; r_vp : list cut;
  r_ticks : Z * Z * Z * Z }.
(** Number of coefficients not 0 up to [eps], and the average over the cuts [cs] in percent of [n] columns (0 for no cut). *)
Definition nonzeros (eps : Q) (c : cut) : nat := List.length (filter (fun e => Qle_bool eps (Qabs (snd e))) (crow c)).
Definition average_percent (eps : Q) (n : nat) (cs : list cut) (a : Q) : Prop :=
  match cs with
  | [] => a == 0
  | _ => a * inject_Z (Z.of_nat n) * inject_Z (Z.of_nat (List.length cs)) == 100 * Qsumf (fun c => inject_Z (Z.of_nat (nonzeros eps c))) cs
  end.
(** [least cs m]: [m] is the least number of such coefficients, [greatest] the greatest. *)
Definition least (eps : Q) (cs : list cut) (m : Z) : Prop := (exists c, In c cs /\ Z.of_nat (nonzeros eps c) = m) /\ forall c, In c cs -> (m <= Z.of_nat (nonzeros eps c))%Z.
Definition greatest (eps : Q) (cs : list cut) (m : Z) : Prop := (exists c, In c cs /\ Z.of_nat (nonzeros eps c) = m) /\ forall c, In c cs -> (Z.of_nat (nonzeros eps c) <= m)%Z.
(** The times are in seconds. *)
Definition sec (t : Z) : Q := inject_Z t / 1000000.

Inductive shows (P : lp) (eps : Q) (r : theround) : string -> field -> Prop :=
| sh_gmic v : r_gomory r = true -> optimum_with P (r_gm_upto r) v -> shows P eps r "bound_gmic" (strQ v)
| sh_nogmic : r_gomory r = false -> shows P eps r "bound_gmic" InfF
| sh_vpc v : optimum_with P (r_vp_upto r) v -> shows P eps r "bound_vpc" (strQ v)
| sh_all v : optimum_with P (r_gm_upto r ++ r_vp_upto r) v -> shows P eps r "bound_all_cuts" (strQ v)
| sh_ngmic : shows P eps r "num_gmic" (IntF (Z.of_nat (List.length (r_gm r))))
| sh_dgmic a : average_percent eps (ncols P) (r_gm r) a -> shows P eps r "avg_density_gmic" (NumF a)
| sh_ggen x : x == sec (fst (fst (fst (r_ticks r)))) -> shows P eps r "gmic_gen_time" (NumF x)
| sh_gapp x : x == sec (snd (fst (fst (r_ticks r)))) -> shows P eps r "gmic_apply_time" (NumF x)
| sh_nvpc : shows P eps r "num_vpc" (IntF (Z.of_nat (List.length (r_vp r))))
| sh_dvpc a : average_percent eps (ncols P) (r_vp r) a -> shows P eps r "avg_density_vpc" (NumF a)
| sh_vgen x : x == sec (snd (fst (r_ticks r))) -> shows P eps r "vpc_gen_time" (NumF x)
| sh_vapp x : x == sec (snd (r_ticks r)) -> shows P eps r "vpc_apply_time" (NumF x).
(** What the names of the four other columns promise. *)
Inductive promises (P : lp) (eps : Q) (r : theround) : string -> field -> Prop :=
| pr_ming m : least eps (r_gm r) m -> promises P eps r "min_density_gmic" (NumF (100 * inject_Z m / inject_Z (Z.of_nat (ncols P))))
| pr_maxg m : greatest eps (r_gm r) m -> promises P eps r "max_density_gmic" (NumF (100 * inject_Z m / inject_Z (Z.of_nat (ncols P))))
| pr_minv m : least eps (r_vp r) m -> promises P eps r "min_density_vpc" (NumF (100 * inject_Z m / inject_Z (Z.of_nat (ncols P))))
| pr_maxv m : greatest eps (r_vp r) m -> promises P eps r "max_density_vpc" (NumF (100 * inject_Z m / inject_Z (Z.of_nat (ncols P)))).
