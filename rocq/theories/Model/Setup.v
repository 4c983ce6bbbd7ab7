(** CglVPC::setupConstraints, src/cut/CglVPC.cpp:1026-1288, the scale/right-hand side chosen in
    CglVPC::tryObjectives, src/cut/CglVPC.cpp:1455-1459, and the cut built by
    PRLP::genCutHelper, src/cut/PRLP.cpp:650-659. *)
From Verif Require Export Prelude Model.Tolerance Model.LP Model.BasisStatus Model.NBSpace Model.PRCollection.

(** A disjunctive term as setupConstraints sees it: DisjunctiveTerm::is_feasible on entry, the
    saved objective ([None] = infinite), the solver state after applying the term's bounds /
    inequalities / warm start and resolving ([toptimal] = checkSolverOptimality), and whether the
    T1 time limit was already reached when the term was about to be processed. *)
(** CglVPC.cpp:1085-1209 with Disjunction.hpp:20-47. *)
Record dterm := { dt_feasible : bool; dt_saved : option Q; dt_solver : termsolver; dt_timeup : bool }.

(** CglVPC.cpp:1122-1157: does a saved objective that differs from the new one cause exit(1)?
    (Line 1126: [newval] is not refreshed after the second resolve.) *)
Definition objective_mismatch (DIFFEPS newval saved : Q) : bool :=
  if isVal newval saved DIFFEPS then false
  else
    let ratio :=
      if isZero newval DIFFEPS && isZero saved DIFFEPS then 1
      else if isZero newval DIFFEPS || isZero saved DIFFEPS then 1 + Qabs (newval - saved)
      else let r := newval / saved in if Qltb r 1 then 1 / r else r in
    greaterThanVal ratio (103 # 100) EPS7.

(** CglVPC.cpp:1085-1209: one normal term. [None] = exit(1). *)
Definition setup_term (prm : prparams) (g : rootdata) (ti : nat) (d : dterm) : option (list prconstr) :=
  if negb (dt_feasible d) then Some []
  else if negb (toptimal (dt_solver d)) then Some []
  else if match dt_saved d with
          | Some s => objective_mismatch (pDIFFEPS prm) (tobj (dt_solver d)) s | None => false end
  then None
  else if dt_timeup d then Some []
  else genDepth1PRCollection prm g (dt_solver d) ti.

(** CglVPC.cpp:1085-1209: the loop over the terms. *)
Fixpoint setup_terms (prm : prparams) (g : rootdata) (ti : nat) (ds : list dterm) : option (list prconstr) :=
  match ds with
  | [] => Some []
  | d :: r => match setup_term prm g ti d, setup_terms prm g (S ti) r with
              | Some a, Some b => Some (a ++ b) | _, _ => None end
  end.

(** CglVPC.cpp:1044-1080: the integer-feasible solution found while building the tree becomes a
    point constraint with right-hand side 1 (not FLIP_BETA). *)
Definition setup_integer_sol (prm : prparams) (g : rootdata) (isol : option (nat -> Q)) : option (list prconstr) :=
  match isol with
  | None => Some []
  | Some s =>
      match setCompNBCoor (pEPS prm) (pDIFFEPS prm) (glp g) (gsol g) s (gNB g) (gredcost g) with
      | None => None
      | Some vec => Some [{| pr_vec := vec; pr_rhs := 1; pr_term := 0;
                             pr_obj := Qsumf (fun j => s j * obj (glp g) j) (seq 0 (ncols (glp g)))
                                       - Qsumf (fun j => gsol g j * obj (glp g) j) (seq 0 (ncols (glp g))) |}]
      end
  end.

(** CglVPC.cpp:1026-1225. *)
Definition setupConstraints (prm : prparams) (g : rootdata) (isol : option (nat -> Q)) (ds : list dterm)
  : option (list prconstr) :=
  match setup_integer_sol prm g isol,
        setup_terms prm g (match isol with Some _ => 1%nat | None => O end) ds with
  | Some a, Some b => Some (a ++ b) | _, _ => None end.

(** CglVPC.cpp:1455-1459: scale and beta from the best term objective. *)
Definition prlp_scale (best_obj lp_opt : Q) : Q :=
  let m := best_obj - lp_opt in
  if isInfinity_default (Qabs m) || lessThanVal m 1 EPS7 then 1 else m.
(** CglVPC.cpp:1455-1459: beta. *)
Definition cut_beta (prm : prparams) (scale : Q) : Q :=
  if (0 <=? pFLIP prm)%Z then scale else -(1) * scale.

(** PRLP.cpp:650-654: the structural cut from a PRLP solution [coeff] (inNBSpace). *)
Definition prlp_cut (prm : prparams) (g : rootdata) (nz : list nat) (coeff : nat -> Q) (scale EPS : Q) : cut :=
  setCutFromNBCoefficients nz coeff (cut_beta prm scale) (glp g) (gbas g) (gNB g) true EPS.
