(** The bilinear heuristic of the PRLP: src/cut/PRLP.cpp:474-490 (setObjectiveFromStructuralPoint) and
    1710-1991 (iterateDeepestCutPostGomory, exitFromIterateDeepestCutPostGomory). *)
From Verif Require Export Model.LP Model.SolverHelper.
#[local] Open Scope Q_scope.

(** Lines 483-489, structural space: [nz] = nonZeroColIndex, [pt] = the point.  Line 485 iterates over the
    VALUES of the vector and line 486 uses them as positions: [None] = reading past its end. *)
Fixpoint set_from_point (nz : list nat) (l : list nat) (pt : nat -> Q) (c : nat -> Q) : option (nat -> Q) :=
  match l with
  | [] => Some c
  | i :: r => match nth_error nz i with
              | None => None
              | Some col => set_from_point nz r pt (upd c i (pt col))
              end
  end.
(** Lines 474-490.  In the nonbasic space [vec] is the point's coordinate vector (setCompNBCoor), [norm] its
    two-norm; [n]: number of columns of the PRLP; SHOULD_SCALE has its default, true (SolverHelper.hpp:82). *)
Definition setObjectiveFromStructuralPoint (inNB : bool) (n : nat) (nz : list nat) (vec : packed) (norm : Q) (pt : nat -> Q) (c : nat -> Q)
  : option (nat -> Q) :=
  if inNB then Some (addToObjective n (Some vec) true 1 norm (match nz with [] => None | _ => Some nz end) true c)
  else match nz with
       | [] => Some pt
       | _ => set_from_point nz nz pt c
       end.

(** Lines 1829-1848 (step 1): the objective of the post-Gomory solver.  [cutrow], [norm]: the cut obtained from
    the PRLP solution and its two-norm; [n]: number of structural columns; [colsol]: getColSolution() of the
    PRLP — line 1840 reads it also when the PRLP is unbounded and [sol] is a ray; [c]: the objective before. *)
Definition post_objective (inNB : bool) (n : nat) (nz : list nat) (cutrow : packed) (norm : Q) (colsol : nat -> Q) (c : nat -> Q) : nat -> Q :=
  if inNB then addToObjective n (Some cutrow) true 1 norm None true c
  else match nz with
       | [] => colsol
       | _ => fold_left (fun c e => upd c (fst e) (snd e)) (combine nz (map colsol (seq 0 (length nz)))) c
       end.

(** One pass of the loop of lines 1768-1960, as answered by the solvers: limits reached (1770); status of the
    PRLP; primal ray available at once / after solving again (1792-1815); status of the post-Gomory solver,
    objective value minus infinity, dual infeasible after solving again (1867-1888); its ray likewise; the new
    solution parallel to the old one (1937); resolvePRLP fine (1948); return value of genCut (1962). *)
Inductive lpstatus := LOptimal | LDual | LOther.
(** PRLP.cpp:1768-1960: the answers met by one pass. *)
Record bilans := { bi_limit : bool; bi_prlp : lpstatus; bi_ray : bool; bi_ray2 : bool; bi_post : lpstatus; bi_neginf : bool; bi_dual2 : bool;
  bi_pray : bool; bi_pray2 : bool; bi_stationary : bool; bi_resolve : bool; bi_code : Z }.
(** [bl_calls]: the passes whose genCut was called, 0 = the call before the loop; [bl_deleted]: deletions of the
    post-Gomory solver; [bl_presolve]: the PRLP's presolve hints are those of the parameters. *)
(** PRLP.cpp:1710-1991: what the heuristic changes. *)
Record bilst := { bl_cuts : Z; bl_calls : list nat; bl_deleted : nat; bl_presolve : bool }.
(** How the heuristic ends: exit(1), or its return value and the final state. *)
(** PRLP.cpp:1710-1991. *)
Inductive biloutcome := BExit | BReturn (value : Z) (s : bilst).

(** Lines 1978-1991. *)
Definition exitBil (s : bilst) : biloutcome :=
  BReturn (bl_cuts s) {| bl_cuts := bl_cuts s; bl_calls := bl_calls s; bl_deleted := S (bl_deleted s); bl_presolve := true |}.
(** Lines 1768-1975; [fuel] = MAX_NUM_ITER_BIL_CUTS - j.  ITER_PER_CUT is 1: a break inside the inner loop
    leaves i = 0, and line 1961 ends the outer loop. *)
Fixpoint bilLoop (ans : nat -> bilans) (fuel j : nat) (s : bilst) : biloutcome :=
  match fuel with
  | O => exitBil s
  | S f =>
      let a := ans j in
      if bi_limit a then exitBil s
      else if (match bi_prlp a with LDual => negb (bi_ray a) && negb (bi_ray2 a) | _ => false end) then exitBil s
      else match bi_post a with
      | LOther => BExit
      | st =>
          if bi_neginf a && negb (bi_dual2 a) then exitBil s
          else
            let dual := match st with LDual => true | _ => bi_neginf a end in
            if dual && negb (bi_pray a) && negb (bi_pray2 a) then exitBil s
            else if bi_stationary a then exitBil s
            else if negb (bi_resolve a) then exitBil s
            else
              let s' := {| bl_cuts := bl_cuts s; bl_calls := bl_calls s ++ [j]; bl_deleted := bl_deleted s; bl_presolve := bl_presolve s |} in
              if (0 <=? bi_code a)%Z then
                bilLoop ans f (S j) {| bl_cuts := bl_cuts s + bi_code a; bl_calls := bl_calls s'; bl_deleted := bl_deleted s; bl_presolve := bl_presolve s |}
              else exitBil s'
      end
  end.
(** Lines 1710-1767.  [lim0]: reachedCutLimit at the start; [use]: USE_ITER_BILINEAR; [timeout], [opt]: state of the
    post-Gomory solver after adding the cuts; [code0]: return value of the first genCut. *)
Definition iterateDeepestCutPostGomory (lim0 : bool) (use : Z) (timeout opt : bool) (code0 : Z) (ans : nat -> bilans) : biloutcome :=
  let s0 := {| bl_cuts := 0; bl_calls := []; bl_deleted := 0; bl_presolve := true |} in
  if lim0 || (use <=? 0)%Z then BReturn 0 s0
  else if timeout then exitBil s0
  else if negb opt then BExit
  else
    let s1 := {| bl_cuts := code0; bl_calls := [0%nat]; bl_deleted := 0; bl_presolve := true |} in
    if (code0 <? 0)%Z then BReturn 0 {| bl_cuts := 0; bl_calls := [0%nat]; bl_deleted := 1; bl_presolve := true |}
    else if (use =? 1)%Z then exitBil s1
    else bilLoop ans (Z.to_nat use - 1) 1 {| bl_cuts := code0; bl_calls := [0%nat]; bl_deleted := 0; bl_presolve := false |}.
