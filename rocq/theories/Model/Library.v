(** The library interface over rounds of cuts: src/utility/VPCSolverInterface.cpp, the problem and the stored cuts. *)
From Verif Require Export Model.LP Model.SolverHelper.
#[local] Open Scope Q_scope.

(** What a VPCSolverInterface holds: the problem and integer columns of its solver, and the stored cuts
    (include/VPCSolverInterface.hpp:46-53).  Parameters and the stored disjunction play no role here. *)
Record iface := { w_lp : lp; w_int : nat -> bool; w_cuts : list cut }.
(** Its operations.  [WSolve]: solve and resolve (201-215), which change no problem data.  [WGenerate]: lines 217-231;
    [None]: the solver is not optimal and an exception is thrown; [Some pool]: the stored cuts as the generator
    leaves them.  [WApply]: lines 233-252 with a mask; [WApplyAll]: lines 253-265 without one: [accepted i]: Osi's
    applyCuts does not consider cut [i] inconsistent, infeasible or ineffective (external). *)
Inductive wop :=
| WLoad (P : lp) (ints : nat -> bool)
| WSolve
| WGenerate (pool : option (list cut))
| WApply (mask : nat -> bool) (clear : bool)
| WApplyAll (accepted : nat -> bool) (clear : bool).

(** Lines 242-249: the loop over the stored cuts; [i]: index of the first one of [cs]. *)
Fixpoint apply_masked (mask : nat -> bool) (i : nat) (cs : list cut) (P : lp) : lp :=
  match cs with
  | [] => P
  | c :: r => apply_masked mask (S i) r (if mask i then add_rows P [cut_row c] else P)
  end.
(** Lines 254-258: one call for all of them; the number applied is counted by Osi. *)
Fixpoint accepted_cuts (acc : nat -> bool) (i : nat) (cs : list cut) : list cut :=
  match cs with
  | [] => []
  | c :: r => if acc i then c :: accepted_cuts acc (S i) r else accepted_cuts acc (S i) r
  end.
(** One operation: the interface afterwards and the value returned (0 for operations without one).  Loading
    (116-199) replaces the problem and leaves the stored cuts alone. *)
Definition wstep (s : iface) (o : wop) : iface * nat :=
  match o with
  | WLoad P ints => ({| w_lp := P; w_int := ints; w_cuts := w_cuts s |}, 0%nat)
  | WSolve => (s, 0%nat)
  | WGenerate None => (s, 0%nat)
  | WGenerate (Some pool) => ({| w_lp := w_lp s; w_int := w_int s; w_cuts := pool |}, 0%nat)
  | WApply mask clear =>
      let P' := apply_masked mask 0 (w_cuts s) (w_lp s) in
      ({| w_lp := P'; w_int := w_int s; w_cuts := if clear then [] else w_cuts s |}, (nrows P' - nrows (w_lp s))%nat)
  | WApplyAll acc clear =>
      let l := accepted_cuts acc 0 (w_cuts s) in
      ({| w_lp := add_rows (w_lp s) (map cut_row l); w_int := w_int s; w_cuts := if clear then [] else w_cuts s |}, length l)
  end.
(** A sequence of operations; the second component lists the values returned. *)
(** VPCSolverInterface.cpp:117-303. *)
Fixpoint wrun (s : iface) (l : list wop) : iface * list nat :=
  match l with
  | [] => (s, [])
  | o :: r => let '(s1, n) := wstep s o in let '(s2, ns) := wrun s1 r in (s2, n :: ns)
  end.
(** Lines 313-354: a new interface (no problem: zero columns and rows). *)
Definition w_new : iface :=
  {| w_lp := {| ncols := 0; nrows := 0; clo := fun _ => None; cup := fun _ => None; rows := fun _ => {| rcoef := []; rlo := None; rup := None |}; obj := fun _ => 0 |};
     w_int := fun _ => false; w_cuts := [] |}.
