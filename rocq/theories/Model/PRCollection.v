(** The point-ray collection of one disjunctive term:
    CglVPC::genDepth1PRCollection, src/cut/CglVPC.cpp:1295-1437, and
    PRLPData::addConstraint, include/CglVPC.hpp:129-134. *)
From Verif Require Export Prelude Model.Tolerance Model.LP Model.BasisStatus Model.NBSpace.

(** One entry of PRLPData (include/CglVPC.hpp:120-135): the four parallel arrays constraints,
    rhs, term, objViolation are one list of records (addConstraint pushes to all four). *)
Record prconstr := { pr_vec : packed; pr_rhs : Q; pr_term : nat; pr_obj : Q }.

(** What the term's solver object answers (external solver state, read only here): its LP, basis,
    column solution, objective value, proven-optimal flag; NBVarIndex and rowOfOrigNBVar of
    tmpProbData; [tBInvA var r] = getBInvACol(var)[r]; [tscl var] = the power of ten chosen by
    setCompNBCoorRay for that ray. *)
Record termsolver := {
  tlp : lp; tbas : basisinfo; tsol : nat -> Q; tobj : Q; toptimal : bool;
  tNB : list nat; trowOf : nat -> option nat; tBInvA : nat -> nat -> Q; tscl : nat -> Q }.

(** Root data: vpcsolver and probData (NBVarIndex, NBReducedCost, lp_opt). *)
(** CglVPC.hpp:139-166 [ProblemData]. *)
Record rootdata := {
  glp : lp; gbas : basisinfo; gsol : nat -> Q; gobj : Q; glp_opt : Q;
  gNB : list nat; gredcost : nat -> Q }.

(** The parameters read by CglVPC.cpp:1030-1440: EPS, RAYEPS, DIFFEPS, PRLP_FLIP_BETA. *)
Record prparams := { pEPS : Q; pRAYEPS : Q; pDIFFEPS : Q; pFLIP : Z }.

(** CglVPC.cpp:1384-1389: getBInvACol, negated when the variable is nonbasic at its lower bound. *)
Definition currRay (t : termsolver) (var r : nat) : Q :=
  if isNonBasicLBVar (tbas t) (ncols (tlp t)) var then tBInvA t var r * -(1) else tBInvA t var r.

(** CglVPC.cpp:1376-1436: one ray. [inl tt] = exit(1); [inr None] = nothing added (fixed variable
    or empty vector); the counter numFails[NUMERICAL_ISSUES_WARNING] is not modelled here. *)
Definition gen_ray (prm : prparams) (g : rootdata) (t : termsolver) (term_ind var : nat)
  : unit + option prconstr :=
  if isNonBasicFixedVar (tbas t) (ncols (tlp t)) var then inr None
  else
    match setCompNBCoorRay (pEPS prm) (pRAYEPS prm) (pDIFFEPS prm) (ncols (glp g)) (gbas g) (tbas t)
            (gNB g) (gredcost g) (trowOf t) (currRay t var) (tscl t var) var with
    | None => inl tt
    | Some (vec, ov) =>
        match vec with
        | [] => inr None
        | _ =>
          let calc := Qsumf (fun e => snd e * gredcost g (fst e)) vec / tscl t var in
          if negb (isVal ov calc (pDIFFEPS prm)) then inl tt
          else if lessThanVal calc 0 (pEPS prm) && lessThanVal calc 0 (pDIFFEPS prm) then inl tt
          else inr (Some {| pr_vec := vec; pr_rhs := 0; pr_term := term_ind; pr_obj := ov |})
        end
    end.

(** CglVPC.cpp:1376-1436: the loop over the term's nonbasic variables. *)
Fixpoint gen_rays (prm : prparams) (g : rootdata) (t : termsolver) (term_ind : nat) (vars : list nat)
  : option (list prconstr) :=
  match vars with
  | [] => Some []
  | var :: r =>
      match gen_ray prm g t term_ind var with
      | inl _ => None
      | inr o =>
          match gen_rays prm g t term_ind r with
          | None => None
          | Some rest => Some (match o with Some c => c :: rest | None => rest end)
          end
      end
  end.

(** CglVPC.cpp:1328 *)
Definition prlp_beta (prm : prparams) : Q := if (0 <=? pFLIP prm)%Z then 1 else -(1).

(** CglVPC.cpp:1295-1437. [None] = exit(1).  setCompNBCoorPoint reads the right-hand sides of the
    term's rows; they are those of the root rows (the term only appends rows), so [glp] is used. *)
Definition genDepth1PRCollection (prm : prparams) (g : rootdata) (t : termsolver) (term_ind : nat)
  : option (list prconstr) :=
  if negb (toptimal t) then None
  else
    let viol := tobj t - gobj g in
    match setCompNBCoorPoint (pEPS prm) (pDIFFEPS prm) (glp g) (gsol g) (tsol t)
            (fun i => activity (glp g) i (tsol t)) viol (gNB g) (gredcost g) with
    | None => None
    | Some pt =>
        if negb (isVal viol (tobj t - glp_opt g) (pDIFFEPS prm)) then None
        else
          let beta := prlp_beta prm in
          let act := viol / (tobj t - glp_opt g) in
          if Qltb 0 beta && negb (isZero viol EPS7)
             && lessThanVal act beta (pEPS prm) && lessThanVal act beta (pDIFFEPS prm) then None
          else
            match gen_rays prm g t term_ind (tNB t) with
            | None => None
            | Some rays =>
                Some ({| pr_vec := pt; pr_rhs := beta; pr_term := term_ind; pr_obj := viol |} :: rays)
            end
    end.
