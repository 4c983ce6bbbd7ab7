(** Nonbasic-space conversions: src/utility/nbspace.cpp:21-741. *)
From Verif Require Export Prelude Model.Tolerance Model.LP Model.BasisStatus.

(** ** setOsiRowCut, src/cut/CutHelper.cpp:19-36.  [nz] is nonZeroColIndex (empty = identity),
    [coeff] the dense array of [num_coeff] entries. *)
Definition setOsiRowCut (nz : list nat) (num_coeff : nat) (coeff : nat -> Q) (rhs EPS : Q) : cut :=
  {| crow := flat_map (fun i => if isZero (coeff i) EPS then []
                                else [(match nz with [] => i | _ => nth i nz O end, coeff i)])
                      (seq 0 num_coeff);
     crhs := rhs |}.

(** ** setCutFromNBCoefficients, nbspace.cpp:661-741 *)

(** Loop state: StructCutRHS and struct_coeff. *)
(** nbspace.cpp:661-740: the local variables. *)
Record ccstate := { cc_rhs : Q; cc_coef : nat -> Q }.
(** Assignment to an element of an array. *)
Definition upd (f : nat -> Q) (j : nat) (v : Q) : nat -> Q := fun k => if Nat.eqb k j then v else f k.

(** nbspace.cpp:716-718: [struct_coeff[idx_j] += mult * a_j * curr_val] over the slack row. *)
Definition add_row (coef : nat -> Q) (r : packed) (m : Q) : nat -> Q :=
  fold_left (fun f e => upd f (fst e) (f (fst e) + m * snd e)) r coef.

(** nbspace.cpp:680-719: body of the loop for nonbasic variable [var] with coefficient [c];
    the constant [mult * a * c] is grouped as [(mult*c) * a] (same value). *)
Definition cc_step (P : lp) (b : basisinfo) (inComp : bool) (st : ccstate) (vc : nat * Q) : ccstate :=
  let '(var, c) := vc in
  if Nat.ltb var (ncols P) then
    let f := upd (cc_coef st) var c in
    if inComp then
      if isNonBasicUBCol b var then
        {| cc_rhs := cc_rhs st - c * upVal (cup P var); cc_coef := upd f var (c * -(1)) |}
      else if isNonBasicLBCol b var then
        {| cc_rhs := cc_rhs st + c * loVal (clo P var); cc_coef := f |}
      else {| cc_rhs := cc_rhs st; cc_coef := f |}
    else {| cc_rhs := cc_rhs st; cc_coef := f |}
  else
    let r := rows P (var - ncols P) in
    let mult := if inComp then match rowSense r with SG => 1 | _ => -(1) end else -(1) in
    {| cc_rhs := cc_rhs st + mult * rowRHS r * c;
       cc_coef := add_row (cc_coef st) (rcoef r) (mult * c) |}.

(** nbspace.cpp:667-682: which nonbasic index each PRLP column stands for. *)
Definition cc_terms (n : nat) (nz : list nat) (coeff : nat -> Q) (NB : list nat) : list (nat * Q) :=
  match nz with
  | [] => map (fun t => (nth t NB O, coeff t)) (seq 0 n)
  | _ => map (fun t => (nth (nth t nz O) NB O, coeff t)) (seq 0 (length nz))
  end.

(** nbspace.cpp:661-740. *)
Definition setCutFromNBCoefficients (nz : list nat) (coeff : nat -> Q) (beta : Q)
    (P : lp) (b : basisinfo) (NB : list nat) (inComp : bool) (EPS : Q) : cut :=
  let st := fold_left (cc_step P b inComp) (cc_terms (ncols P) nz coeff NB)
                      {| cc_rhs := beta; cc_coef := fun _ => 0 |} in
  setOsiRowCut [] (ncols P) (cc_coef st) (cc_rhs st) EPS.

(** ** Selection and merging of "tiny" entries, nbspace.cpp:104-140 (points), 301-352 (rays),
    506-540 (generic). *)

(** CoinPackedVector::sortDecrElement (external): sort by decreasing value. *)
Fixpoint insert_decr (e : nat * Q) (l : packed) : packed :=
  match l with
  | [] => [e]
  | h :: t => if Qle_bool (snd h) (snd e) then e :: l else h :: insert_decr e t
  end.
(** CoinPackedVector::sortDecrElement (external). *)
Definition sortDecrElement (l : packed) : packed := fold_right insert_decr [] l.

(** nbspace.cpp:108-118 / 307-322: add tiny entries in order while [need obj]. *)
Fixpoint select_tiny (need : Q -> bool) (redcost : nat -> Q) (o : Q) (l : packed) : packed * Q :=
  match l with
  | [] => ([], o)
  | e :: r =>
      if need o then
        let '(sel, o') := select_tiny need redcost (o + snd e * redcost (fst e)) r in (e :: sel, o')
      else ([], o)
  end.

(** nbspace.cpp:124-129: inner while: the comparison reads [tinyIndex[ind2]] (unsorted list)
    while the entry written is the [ind2]-th of the sorted vector. *)
Fixpoint emit_tiny (bound : nat) (tz : list (nat * (nat * Q))) : packed * list (nat * (nat * Q)) :=
  match tz with
  | [] => ([], [])
  | (ti, e) :: r =>
      if Nat.ltb ti bound then let '(out, rest) := emit_tiny bound r in (e :: out, rest)
      else ([], tz)
  end.
(** nbspace.cpp:123-140 *)
Fixpoint merge_tiny (nonTiny : packed) (tz : list (nat * (nat * Q))) : packed :=
  match nonTiny with
  | [] => map snd tz
  | e :: r => let '(out, rest) := emit_tiny (fst e) tz in out ++ e :: merge_tiny r rest
  end.

(** The packed result before scaling and the final objective: common code of the three
    conversion routines. *)
Definition with_tiny (need : Q -> bool) (redcost : nat -> Q) (o : Q) (nonTiny tiny : packed)
  : packed * Q :=
  if need o then
    let '(sel, o') := select_tiny need redcost o (sortDecrElement tiny) in
    (merge_tiny nonTiny (combine (map fst tiny) sel), o')
  else (nonTiny, o).

(** nbspace.cpp:91-100: classify entry (i, newVal). *)
Definition classify (eps : Q) (redcost : nat -> Q) (acc : packed * packed * Q) (e : nat * Q)
  : packed * packed * Q :=
  let '(nt, ti, o) := acc in
  if isZero (snd e) eps then
    if isZero (snd e * redcost (fst e)) eps then acc
    else (nt, ti ++ [e], o)
  else (nt ++ [e], ti, o + snd e * redcost (fst e)).

(** ** setCompNBCoorPoint, nbspace.cpp:21-197 (deletedVar = -1, its default).
    [sol]/[act]: column solution and row activities of tmpSolver, [v]: column solution of
    origSolver, [dobj] = tmpSolver objective - origSolver objective. *)
Definition point_coord (P : lp) (v : nat -> Q) (sol : nat -> Q) (act : nat -> Q) (var : nat) : Q :=
  if Nat.ltb var (ncols P) then Qabs (sol var - v var)
  else Qabs (rowRHS (rows P (var - ncols P)) - act (var - ncols P)%nat - 0).

(** nbspace.cpp:60-150: the coordinates of the point for all nonbasic variables. *)
Definition point_entries (P : lp) (v sol act : nat -> Q) (NB : list nat) : packed :=
  map (fun i => (i, point_coord P v sol act (nth i NB O))) (seq 0 (ncols P)).

(** nbspace.cpp:146-196: does the routine exit(1) because the objective does not match? *)
Definition point_check (EPS DIFFEPS val1 val2 : Q) : bool :=
  let violation := val1 - val2 in
  if isVal violation 0 EPS then false
  else
    let ratio :=
      if (lessThanVal val1 0 EPS && greaterThanVal val2 0 EPS)
         || (lessThanVal val2 0 EPS && greaterThanVal val1 0 EPS) then inject_Z (10 ^ 100)
      else if isZero val1 EPS && isZero val2 EPS then 1
      else if isZero val1 EPS || isZero val2 EPS then 1 + Qabs violation
      else let r := val1 / val2 in if Qltb r 1 then val2 / val1 else r in
    negb (isVal violation 0 DIFFEPS) && greaterThanVal ratio (103 # 100) EPS7.

(** Result: [None] = exit(1); otherwise the packed point. *)
(** nbspace.cpp:21-193. *)
Definition setCompNBCoorPoint (EPS DIFFEPS : Q) (P : lp) (v sol act : nat -> Q) (dobj : Q)
    (NB : list nat) (redcost : nat -> Q) : option packed :=
  let '(nt, ti, o) := fold_left (classify EPS redcost) (point_entries P v sol act NB) ([], [], 0) in
  let '(vec, o') := with_tiny (fun o => negb (isVal o dobj EPS)) redcost o nt ti in
  if point_check EPS DIFFEPS o' dobj then None else Some vec.

(** ** setCompNBCoor, nbspace.cpp:425-587 with a caller-supplied point [x]; slack values are
    computed (currSlackValue = NULL).  [objc] are the objective coefficients. *)
Definition setCompNBCoor (EPS DIFFEPS : Q) (P : lp) (v x : nat -> Q)
    (NB : list nat) (redcost : nat -> Q) : option packed :=
  let dobj := Qsumf (fun j => x j * obj P j) (seq 0 (ncols P))
              - Qsumf (fun j => v j * obj P j) (seq 0 (ncols P)) in
  let '(nt, ti, o) := fold_left (classify EPS redcost)
        (point_entries P v x (fun i => activity P i x) NB) ([], [], 0) in
  let '(vec, o') := with_tiny (fun o => negb (isVal o dobj EPS)) redcost o nt ti in
  if negb (isVal o' dobj EPS) && negb (isVal o' dobj DIFFEPS) then None else Some vec.

(** ** setCompNBCoorRay, nbspace.cpp:203-417 (deletedVar = -1, rayNeedsCalculation = false).
    [ray r] = array of row entries, already oriented by the caller; [rowOf c] = row in which
    the [c]-th original nonbasic variable is basic now, if any; [scl] stands for
    10^scale_exp (computed from exponents of the entries, lines 324-330 and 366-378), only
    its being positive is used. *)
Definition tmpRayMult (bt : basisinfo) (n tmpNBVar : nat) : Q :=
  if isNonBasicUBVar bt n tmpNBVar then -(1) else 1.

(** lines 247-287 for one original nonbasic index [c]: [None] = nothing, [inl] = the ray's own
    variable (always kept), [inr] = entry of a now-basic variable. *)
Definition ray_entry (bo bt : basisinfo) (n : nat) (NB : list nat) (rowOf : nat -> option nat)
    (ray : nat -> Q) (tmpNBVar c : nat) : option (Q + Q) :=
  let origNBVar := nth c NB O in
  let rayMult := if isNonBasicUBVar bo n origNBVar then -(1) else 1 in
  let newRayMult := tmpRayMult bt n tmpNBVar * rayMult in
  if Nat.eqb origNBVar tmpNBVar then Some (inl newRayMult)
  else match rowOf c with
       | None => None
       | Some r => Some (inr (tmpRayMult bt n tmpNBVar * newRayMult * ray r))
       end.

(** nbspace.cpp:288-330: entries are sorted into kept and tiny ones. *)
Definition ray_classify (RAYEPS : Q) (redcost : nat -> Q) (acc : packed * packed * Q)
    (e : nat * option (Q + Q)) : packed * packed * Q :=
  let '(nt, ti, o) := acc in
  match snd e with
  | None => acc
  | Some (inl q) => (nt ++ [(fst e, q)], ti, o + q * redcost (fst e))
  | Some (inr q) => classify RAYEPS redcost acc (fst e, q)
  end.

(** CoinPackedVector::operator*= (external). *)
Definition scale_packed (s : Q) (v : packed) : packed := map (fun e => (fst e, snd e * s)) v.

(** lines 217-222 *)
Definition ray_objViolation (bt : basisinfo) (n tmpNBVar : nat) : Q :=
  if Nat.ltb tmpNBVar n then tmpRayMult bt n tmpNBVar * reducedCost bt tmpNBVar
  else -(1) * tmpRayMult bt n tmpNBVar * rowPrice bt (tmpNBVar - n).

(** nbspace.cpp:195-416. *)
Definition setCompNBCoorRay (EPS RAYEPS DIFFEPS : Q) (n : nat) (bo bt : basisinfo)
    (NB : list nat) (redcost : nat -> Q) (rowOf : nat -> option nat)
    (ray : nat -> Q) (scl : Q) (tmpNBVar : nat) : option (packed * Q) :=
  let ov := ray_objViolation bt n tmpNBVar in
  let '(nt, ti, o) := fold_left (ray_classify RAYEPS redcost)
        (map (fun c => (c, ray_entry bo bt n NB rowOf ray tmpNBVar c)) (seq 0 n)) ([], [], 0) in
  let need := fun o => lessThanVal o 0 EPS || negb (isVal o ov EPS) in
  let '(vec0, o') := with_tiny need redcost o nt ti in
  let vec := if need o then scale_packed scl vec0
             else if isVal scl 1 EPS7 then vec0 else scale_packed scl vec0 in
  if lessThanVal o' 0 EPS && lessThanVal o' 0 DIFFEPS then None           (* 391-399 exit(1) *)
  else if negb (isVal o' ov EPS) && negb (isVal o' ov DIFFEPS) then None  (* 405-411 exit(1) *)
  else Some (vec, ov).
