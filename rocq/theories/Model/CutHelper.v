(** src/cut/CutHelper.cpp: building, cleaning and comparing cuts  alpha.x >= beta. *)
From Verif Require Export Prelude Model.Tolerance Model.LP.

(** CutHelper.cpp:19-36 [setOsiRowCut]: keep the coefficients that are not zero within EPS;
    [nz] renames positions when nonempty. *)
Definition setOsiRowCut (nz : list nat) (coeff : list Q) (rhs EPS : Q) : cut :=
  {| crow := map (fun p => (match nz with [] => fst p | _ => nth (fst p) nz O end, snd p))
               (filter (fun p => negb (isZero (snd p) EPS)) (combine (seq 0 (length coeff)) coeff));
     crhs := rhs |}.

(** CutHelper.cpp:59-98, loop body of [removeSmallCoefficients] for one entry: the entry kept
    (if any) and the amount subtracted from the right-hand side.  Infinite bounds are
    -/+DBL_MAX ([loVal]/[upVal]); the calls use the default infinity arguments. *)
Definition small_step (P : lp) (EPS EPS_COEFF : Q) (e : nat * Q) : option (nat * Q) * Q :=
  let c := snd e in
  let a := Qabs c in
  let l := loVal (clo P (fst e)) in
  let u := upVal (cup P (fst e)) in
  if isZero a EPS && isZero (a * obj P (fst e)) EPS then (None, 0)
  else if Qle_bool a EPS_COEFF then
    if Qltb c 0 && negb (isNegInfinity_default l) then (None, c * l)
    else if Qltb 0 c && negb (isInfinity_default u) then (None, c * u)
    else (Some e, 0)
  else (Some e, 0).

(** CutHelper.cpp:59-98: the loop over the entries. *)
Fixpoint small_loop (P : lp) (EPS EPS_COEFF : Q) (v : packed) (rhs : Q) : packed * Q :=
  match v with
  | [] => ([], rhs)
  | e :: r =>
      let (k, d) := small_step P EPS EPS_COEFF e in
      let (r', rhs') := small_loop P EPS EPS_COEFF r (rhs - d) in
      (match k with Some e' => e' :: r' | None => r' end, rhs')
  end.

(** CutHelper.cpp:50-104 [removeSmallCoefficients]. *)
Definition removeSmallCoefficients (c : cut) (P : lp) (EPS EPS_COEFF : Q) : cut :=
  let (r, b) := small_loop P EPS EPS_COEFF (crow c) (crhs c) in
  {| crow := r; crhs := if isZero b EPS then 0 else b |}.

(** CutHelper.cpp:112-114 [badSupport]. *)
Definition badSupport (cutNz numCols : nat) (min_sup_thresh max_sup_abs max_sup_rel : Q) : bool :=
  let n := inject_Z (Z.of_nat cutNz) in
  Qltb min_sup_thresh n && (Qltb max_sup_abs n || Qltb (max_sup_rel * inject_Z (Z.of_nat numCols)) n).

(** OsiRowCut::violated (Osi, external): amount by which a point violates the row. *)
Definition violated (c : cut) (x : nat -> Q) : Q :=
  if Qltb (pdot (crow c) x) (crhs c) then crhs c - pdot (crow c) x else 0.

(** CutHelper.cpp:116-131 [badViolation]; [norm] is the Euclidean norm of the row
    (CoinPackedVector::twoNorm, external). *)
Definition badViolation (c : cut) (norm : Q) (x : nat -> Q) (min_viol_abs min_viol_rel : Q) : bool :=
  let violation := violated c x in
  negb (greaterThanVal violation 0 min_viol_abs) || negb (greaterThanVal violation 0 (norm * min_viol_rel)).

(** CutHelper.cpp:139-151 [badDynamism] loop (the same loop is at 172-184 in [scaleCut]):
    smallest and largest non-negligible magnitudes. *)
Fixpoint minmax_loop (EPS : Q) (v : packed) (mn mx : Q) : Q * Q :=
  match v with
  | [] => (mn, mx)
  | e :: r =>
      let a := Qabs (snd e) in
      if isZero a EPS then minmax_loop EPS r mn mx
      else minmax_loop EPS r (if Qltb a mn || isZero mn EPS then a else mn) (if Qltb mx a then a else mx)
  end.

(** CutHelper.cpp:134-163 [badDynamism].  A division by 0 of a nonzero double is +inf in C++,
    which exceeds every limit; it is made explicit here. *)
Definition badDynamism (c : cut) (minAbsCoeff maxAbsCoeff SENSIBLE_MAX EPS : Q) : bool :=
  let (mn, mx0) := minmax_loop EPS (crow c) 0 0 in
  let b := Qabs (crhs c) in
  let mx := if Qltb mx0 b then b else mx0 in
  isZero mx EPS
  || (if Qeq_bool mn 0 then true else greaterThanVal (mx / mn) SENSIBLE_MAX EPS)
  || (negb (isZero minAbsCoeff EPS)
      && greaterThanVal (Qabs (mx / minAbsCoeff)) (Qabs (SENSIBLE_MAX * maxAbsCoeff / minAbsCoeff)) EPS).

(** The failure codes used by [cleanCut] (CglVPC::FailureType). *)
(** CutHelper.cpp:208-234. *)
Inductive cleanresult := CleanOK | BadSupport | BadViolation | BadDynamism.

(** CutHelper.cpp:208-234 [cleanCut]: the cleaned cut and the verdict. [norm] = norm of the
    cleaned row. *)
Definition cleanCut (c : cut) (P : lp) (sol : nat -> Q) (norm : cut -> Q)
    (EPS_COEFF MAX_DYN MIN_SUP_THRESH MAX_SUP_ABS MAX_SUP_REL MIN_VIOL_ABS MIN_VIOL_REL
     MIN_ABS_COEFF MAX_ABS_COEFF EPS : Q) (checkViolation : bool) : cut * cleanresult :=
  let c' := removeSmallCoefficients c P EPS EPS_COEFF in
  (c',
   if badSupport (length (crow c')) (ncols P) MIN_SUP_THRESH MAX_SUP_ABS MAX_SUP_REL then BadSupport
   else if checkViolation && badViolation c' (norm c') sol MIN_VIOL_ABS MIN_VIOL_REL then BadViolation
   else if badDynamism c' MIN_ABS_COEFF MAX_ABS_COEFF
             (let d := if Qltb 0 EPS then 1 / EPS else MAX_DYN in if Qltb MAX_DYN d then d else MAX_DYN) EPS
        then BadDynamism
   else CleanOK).

(** ** isRowDifferent, CutHelper.cpp:254-401.  Running values of [ratio], [ratio_coeff],
    [maxDiff], [maxDiffCoeff] ([maxDiffZero] is never read). *)
Record rdst := { rd_ratio : Q; rd_rc : Q; rd_md : Q; rd_mdc : Q }.

(** CutHelper.cpp:268-284. *)
Definition rd_init (b1 b2 EPS : Q) : rdst :=
  if isZero b1 EPS || isZero b2 EPS
  then {| rd_ratio := -(1); rd_rc := -(1);
          rd_md := if negb (isZero b1 EPS) then Qabs b1 else if negb (isZero b2 EPS) then Qabs b2 else 0;
          rd_mdc := 0 |}
  else {| rd_ratio := b1 / b2; rd_rc := -(1); rd_md := 0; rd_mdc := 0 |}.

(** CutHelper.cpp:292-300: skip entries of the second row with smaller index; a non-negligible
    one means "different" ([None]). *)
Fixpoint rd_skip (EPS : Q) (i1 : nat) (v2 : packed) : option packed :=
  match v2 with
  | [] => Some []
  | e :: r => if Nat.ltb (fst e) i1 then if isZero (snd e) EPS then rd_skip EPS i1 r else None
              else Some v2
  end.

(** CutHelper.cpp:326-362: one matched pair of non-negligible coefficients. *)
Definition rd_pair (EPS : Q) (x1 x2 : Q) (s : rdst) : option rdst :=
  let q := x1 / x2 in
  let upd := fun (r md : Q) =>
    if lessThanVal r 0 EPS7 then if lessThanVal q 0 EPS7 then None else Some (q, md)
    else let d := Qabs (x1 - r * x2) in Some (r, if Qltb md d then d else md) in
  match upd (rd_ratio s) (rd_md s), upd (rd_rc s) (rd_mdc s) with
  | Some (ra, md), Some (rc, mdc) =>
      if negb (isZero md EPS) && negb (isZero mdc EPS) then None
      else Some {| rd_ratio := ra; rd_rc := rc; rd_md := md; rd_mdc := mdc |}
  | _, _ => None
  end.

(** CutHelper.cpp:290-376: the loop and the check of the unmatched rest. [None] = return 2. *)
Fixpoint rd_loop (EPS : Q) (v1 v2 : packed) (s : rdst) : option rdst :=
  match v1 with
  | [] => if forallb (fun e => isZero (snd e) EPS) v2 then Some s else None
  | e1 :: r1 =>
      match rd_skip EPS (fst e1) v2 with
      | None => None
      | Some [] => if isZero (snd e1) EPS then rd_loop EPS r1 [] s else None
      | Some (e2 :: r2) =>
          if Nat.ltb (fst e1) (fst e2)
          then if isZero (snd e1) EPS then rd_loop EPS r1 (e2 :: r2) s else None
          else if isZero (snd e1) EPS || isZero (snd e2) EPS
          then if negb (isZero (snd e1) EPS) || negb (isZero (snd e2) EPS) then None
               else rd_loop EPS r1 r2 s
          else match rd_pair EPS (snd e1) (snd e2) s with
               | None => None | Some s' => rd_loop EPS r1 r2 s' end
      end
  end.

(** CutHelper.cpp:254-401. *)
Definition isRowDifferent (v1 : packed) (b1 : Q) (v2 : packed) (b2 EPS : Q) : Z :=
  match rd_loop EPS v1 v2 (rd_init b1 b2 EPS) with
  | None => 2%Z
  | Some s =>
      if isZero (rd_md s) EPS then 0%Z
      else if isZero (rd_mdc s) EPS then
        if lessThanVal (rd_rc s) 0 EPS then 2%Z
        else let d := b1 - rd_rc s * b2 in
             if isZero d EPS then 0%Z else if greaterThanVal d 0 EPS then (-1)%Z else 1%Z
      else 0%Z
  end.

(** CutHelper.cpp:461-484 [howDuplicate], without the orthogonality outputs: verdict of the first
    existing cut that is not "different", with its index; (0, None) when there is none. *)
Fixpoint howDuplicate_from (i : nat) (cuts : list cut) (t : cut) (EPS : Q) : Z * option nat :=
  match cuts with
  | [] => (0%Z, None)
  | c :: r => let h := isRowDifferent (crow c) (crhs c) (crow t) (crhs t) EPS in
              if Z.eqb h 2 then howDuplicate_from (S i) r t EPS else (h, Some i)
  end.
(** CutHelper.cpp:461-484. *)
Definition howDuplicate (cuts : list cut) (t : cut) (startIndex : nat) (EPS : Q) : Z * option nat :=
  howDuplicate_from startIndex (skipn startIndex cuts) t EPS.

(** The orthogonality outputs of [howDuplicate]: index (if any was seen) and value of the smallest
    orthogonality among the cuts inspected (strict improvement, start value 2). [ortho] is the
    orthogonality of a cut with the new one. *)
(** CutHelper.cpp:461-484. *)
Fixpoint minOrtho_from (i : nat) (cuts : list cut) (t : cut) (EPS : Q) (ortho : cut -> cut -> Q)
    (best : option nat * Q) : option nat * Q :=
  match cuts with
  | [] => best
  | c :: r =>
      let o := ortho t c in
      let best' := if Qltb o (snd best) then (Some i, o) else best in
      if Z.eqb (isRowDifferent (crow c) (crhs c) (crow t) (crhs t) EPS) 2
      then minOrtho_from (S i) r t EPS ortho best' else best'
  end.
(** CutHelper.cpp:461-484: the orthogonality outputs. *)
Definition minOrtho (cuts : list cut) (t : cut) (startIndex : nat) (EPS : Q) (MIN_ORTHO : Q)
    (ortho : cut -> cut -> Q) : option nat * Q :=
  if Qltb 0 MIN_ORTHO then minOrtho_from startIndex (skipn startIndex cuts) t EPS ortho (None, 2)
  else (None, 2).
