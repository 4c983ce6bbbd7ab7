(** Solver wrappers: src/utility/SolverHelper.cpp, src/utility/VPCSolverInterface.cpp (conversion of
    cuts, loading, flipping the objective) and the flip at the start of CglVPC::generateCuts
    (src/cut/CglVPC.cpp:389-402).  A solver object is the problem it holds: Osi reports
    objective value = coefficients . x - offset (documentation of OsiObjOffset). *)
From Verif Require Export Model.LP Model.TextUtil.
#[local] Open Scope Q_scope.

Record osi := { os_lp : lp; os_int : nat -> bool; os_sense : Q; os_off : Q }.

(** Assignment to an element of an array. *)
Definition upd {A} (f : nat -> A) (j : nat) (v : A) : nat -> A := fun i => if Nat.eqb i j then v else f i.
(** OsiSolverInterface::setObjective (external). *)
Definition set_obj (P : lp) (c : nat -> Q) : lp :=
  {| ncols := ncols P; nrows := nrows P; clo := clo P; cup := cup P; rows := rows P; obj := c |}.
(** The loop "for (col...) setObjCoeff(col, -1. * obj[col])"; [obj] is the solver's own array. *)
(** CglVPC.cpp:389-402, VPCSolverInterface.cpp:339-358. *)
Definition negate_obj (n : nat) (c : nat -> Q) : nat -> Q :=
  fold_left (fun c col => upd c col (-(1) * c col)) (seq 0 n) c.

(** The block shared by SolverHelper.cpp:67-80, CglVPC.cpp:389-402 and (with its own test)
    VPCSolverInterface.cpp:97-107: the sense becomes [s], coefficients and offset are negated. *)
Definition flip_to (s : Q) (P : osi) : osi :=
  {| os_lp := set_obj (os_lp P) (negate_obj (ncols (os_lp P)) (obj (os_lp P)));
     os_int := os_int P; os_sense := s;
     os_off := if Qeq_bool (os_off P) 0 then os_off P else -(1) * os_off P |}.

(** SolverHelper.cpp:67 and CglVPC.cpp:389: [getObjSense() < 1e-3]. *)
Definition minimise (P : osi) : osi := if Qltb (os_sense P) (1 # 1000) then flip_to 1 P else P.

(** VPCSolverInterface.cpp:86-108 [flipObj]. *)
Definition flipObj (sense : Z) (P : osi) : osi :=
  if negb (isVal (os_sense P) (inject_Z sense) EPS7) then flip_to (inject_Z sense) P else P.

(** ** Reading an instance, SolverHelper.cpp:8-82 and VPCSolverInterface.cpp:116-153. *)
Inductive loaded := Loaded (P : osi) | LoadExit | LoadTerminated.
(** What reading the file gives (external): a status and a problem; [None] when the reader throws. *)
Definition reader := text -> option (Z * osi).

(** SolverHelper.cpp:31-60: only the last branch catches an exception. *)
Definition read_instance (readLp readMps : reader) (ext filename : text) : loaded :=
  let after (r : option (Z * osi)) (thrown : loaded) :=
    match r with
    | None => thrown
    | Some (status, P) => if (status <? 0)%Z then LoadExit else Loaded P
    end in
  if text_eqb ext (txt "lp") then after (readLp filename) LoadTerminated
  else if text_eqb ext (txt "mps") then after (readMps filename) LoadTerminated
  else after (readMps filename) LoadExit.
(** SolverHelper.cpp:8-82.  [fexists] is the external stat(). *)
Definition initializeSolver (fexists : text -> bool) (readLp readMps : reader) (filename : text) : loaded :=
  if negb (fexists filename) && negb (fexists (filename ++ txt ".gz")) && negb (fexists (filename ++ txt ".bz2"))
  then LoadExit
  else match parseFilename filename with
       | ParseErr _ => LoadExit
       | Parsed _ _ ext =>
           match read_instance readLp readMps ext filename with
           | Loaded P => Loaded (minimise P)
           | r => r
           end
       end.

(** ** Loading from arrays, VPCSolverInterface.cpp:171-199 (loadProblem is external: [pd_lp] is the
    problem the arrays describe; columns typed 'B', 'I', others). *)
Record probarrays := { pa_lp : lp; pa_sense : Q; pa_off : Q; pa_type : nat -> ascii }.
(** OsiSolverInterface::setColBounds (external), used at VPCSolverInterface.cpp:171-199. *)
Definition set_box (P : lp) (j : nat) (l u : option Q) : lp :=
  {| ncols := ncols P; nrows := nrows P; clo := upd (clo P) j l; cup := upd (cup P) j u; rows := rows P; obj := obj P |}.
(** Loop body, lines 178-190. *)
Definition load_type (t : nat -> ascii) (acc : lp * (nat -> bool)) (i : nat) : lp * (nat -> bool) :=
  let '(P, J) := acc in
  let '(P1, J1) := if Ascii.eqb (t i) "B"%char then (set_box P i (Some 0) (Some 1), upd J i true) else (P, J) in
  if Ascii.eqb (t i) "I"%char then (P1, upd J1 i true) else (P1, J1).
(** The offset field of the data is not used; [old_off] is the offset the solver object had. *)
(** VPCSolverInterface.cpp:171-199. *)
Definition load_arrays (old_off : Q) (d : probarrays) : osi :=
  let '(P, J) := fold_left (load_type (pa_type d)) (seq 0 (ncols (pa_lp d))) (pa_lp d, fun _ => false) in
  flipObj 1 {| os_lp := P; os_int := J; os_sense := pa_sense d; os_off := old_off |}.

(** ** Objective coefficients from packed vectors, SolverHelper.cpp:181-235. *)
(** Lines 196-200. *)
Definition zero_obj (n : nat) (c : nat -> Q) : nat -> Q := fold_left (fun c i => upd c i 0) (seq 0 n) c.
(** New value of one coefficient, lines 226 and 231. *)
Definition new_coeff (mult twoNorm coeff elem : Q) : Q :=
  if isZero mult EPS7 then 0 else coeff + elem * mult / twoNorm.
(** Lines 203-209; [norm] is the (external) two-norm of the vector. *)
Definition scale_of (SHOULD_SCALE : bool) (mult norm : Q) (n : nat) : Q :=
  if negb (isZero mult EPS7) && SHOULD_SCALE then
    let realTwoNorm := norm / inject_Z (Z.of_nat n) in
    if greaterThanVal realTwoNorm 0 EPS7 then realTwoNorm else 1
  else 1.
(** Lines 228-233. *)
Definition add_all (mult tn : Q) (v : packed) (c : nat -> Q) : nat -> Q :=
  fold_left (fun c e => upd c (fst e) (new_coeff mult tn (c (fst e)) (snd e))) v c.
(** Lines 210-227: [nz] is what is left of nonZeroColIndices from position [ind] on. *)
Fixpoint skip_less (col : nat) (ind : nat) (nz : list nat) : nat * list nat :=
  match nz with
  | x :: r => if Nat.ltb x col then skip_less col (S ind) r else (ind, nz)
  | [] => (ind, [])
  end.
(** SolverHelper.cpp:210-227: the loop over the entries of the vector. *)
Fixpoint add_mapped (mult tn : Q) (v : packed) (ind : nat) (nz : list nat) (c : nat -> Q) : nat -> Q :=
  match v with
  | [] => c
  | e :: r =>
      let '(ind', nz') := skip_less (fst e) ind nz in
      match nz' with
      | [] => c
      | x :: _ => if Nat.ltb (fst e) x then add_mapped mult tn r ind' nz' c
                  else add_mapped mult tn r ind' nz' (upd c ind' (new_coeff mult tn (c ind') (snd e)))
      end
  end.
(** SolverHelper.cpp:181-235. *)
Definition addToObjective (n : nat) (vec : option packed) (zeroOut : bool) (mult norm : Q)
    (nz : option (list nat)) (SHOULD_SCALE : bool) (c : nat -> Q) : nat -> Q :=
  let c0 := if zeroOut then zero_obj n c else c in
  match vec with
  | None => c0
  | Some v =>
      let tn := scale_of SHOULD_SCALE mult norm n in
      match nz with
      | Some l => add_mapped mult tn v 0 l c0
      | None => add_all mult tn v c0
      end
  end.

(** SolverHelper.cpp:240-258. [ixs] : [Some l] when numIndices > 0 and indices is not NULL. *)
Definition setConstantObjective (n : nat) (val : Q) (ixs : option (list nat)) (c : nat -> Q) : nat -> Q :=
  match ixs with
  | Some (i :: r) => fold_left (fun c i => upd c i val) (i :: r) c
  | _ => fold_left (fun c i => upd c i val) (seq 0 n) c
  end.

(** ** Cuts in other formats, VPCSolverInterface.cpp:17-56. *)
(** An OsiRowCut with its bounds, and the pool: row cuts and the number of column cuts. *)
Record orowcut := { oc_row : packed; oc_lb : option Q; oc_ub : option Q }.
(** An OsiCuts (external): row cuts and the number of column cuts. *)
Record opool := { op_rows : list orowcut; op_ncols : nat }.
(** OsiRowCut::rhs() (external, as documented): upper bound for <= and ranges, else the lower bound. *)
Definition oc_rhs (c : orowcut) : Q := rowRHS {| rcoef := oc_row c; rlo := oc_lb c; rup := oc_ub c |}.
(** SparseCut, VPCSolverInterface.hpp:12-19: number of entries, indices, coefficients, right-hand side. *)
Record sparsecut := { sc_num : nat; sc_index : list nat; sc_coeff : list Q; sc_rhs : Q }.
(** DenseCut, VPCSolverInterface.hpp:21-27: coefficients and right-hand side. *)
Record densecut := { dc_coeff : list Q; dc_rhs : Q }.
(** sizeCuts() counts row and column cuts; rowCutPtr of an index beyond the row cuts is undefined. *)
(** VPCSolverInterface.cpp:14-56. *)
Definition with_rows {A} (f : orowcut -> option A) (p : opool) : option (list A) :=
  match op_ncols p with
  | O => fold_right (fun c acc => match f c, acc with Some a, Some l => Some (a :: l) | _, _ => None end) (Some []) (op_rows p)
  | S _ => None
  end.
(** VPCSolverInterface.cpp:14-32. *)
Definition convertCutsToSparseCuts (p : option opool) : option (list sparsecut) :=
  match p with
  | None => Some []
  | Some p => with_rows (fun c => Some {| sc_num := length (oc_row c); sc_index := map fst (oc_row c);
                                           sc_coeff := map snd (oc_row c); sc_rhs := oc_rhs c |}) p
  end.
(** Conversion double -> int: towards zero; undefined outside int. *)
Definition to_int_trunc (q : Q) : option Z :=
  let z := Z.quot (Qnum q) (Zpos (Qden q)) in
  if ((- 2 ^ 31 <=? z) && (z <? 2 ^ 31))%Z then Some z else None.
(** vector::operator[] assignment inside the vector. *)
Fixpoint set_list {A} (l : list A) (i : nat) (v : A) : list A :=
  match l, i with [], _ => [] | _ :: r, O => v :: r | x :: r, S i => x :: set_list r i v end.
(** Lines 45-49; line 47 declares curr_val an int.  A column outside the vector is undefined. *)
Fixpoint dense_fill (v : packed) (acc : list Q) : option (list Q) :=
  match v with
  | [] => Some acc
  | (i, q) :: r => if Nat.ltb i (length acc)
                   then match to_int_trunc q with
                        | Some z => dense_fill r (set_list acc i (inject_Z z))
                        | None => None
                        end
                   else None
  end.
(** VPCSolverInterface.cpp:34-56. *)
Definition convertCutsToDenseCuts (p : option opool) (n : nat) : option (list densecut) :=
  match p with
  | None => Some []
  | Some p => with_rows (fun c => option_map (fun l => {| dc_coeff := l; dc_rhs := oc_rhs c |})
                                    (dense_fill (oc_row c) (repeat 0 n))) p
  end.

(** ** Applying cuts, SolverHelper.cpp:515-645. *)
(** What the solver reports after (re)solving the problem it holds (external). *)
Inductive lpans := LOptimal (v : Q) | LInfeasible | LLimit | LOther.
(** [ask k P]: answer after the k-th solve (each resolve / initialSolve together with the
    checkSolverOptimality that follows it) of problem [P]. *)
(** The LP solver (external), as called at SolverHelper.cpp:517-645. *)
Definition solver_oracle := nat -> lp -> lpans.
(** OsiRowCut with a lower bound only, as a row (external). *)
Definition cut_row (c : cut) : row := {| rcoef := crow c; rlo := Some (crhs c); rup := None |}.
(** OsiSolverInterface::applyCuts / applyRowCuts (external). *)
Definition add_rows (P : lp) (rs : list row) : lp :=
  {| ncols := ncols P; nrows := nrows P + length rs; clo := clo P; cup := cup P;
     rows := fun i => if Nat.ltb i (nrows P) then rows P i else nth (i - nrows P) rs (rows P i); obj := obj P |}.
(** Result: the problem left in the solver and the value returned ([None] = getInfinity()), or the end
    of the program, or undefined behaviour. *)
(** SolverHelper.cpp:517-611. *)
Inductive applied := Applied (P : lp) (v : option Q) | AppExit | AppUndef.
(** cs.rowCut(i) for start <= i < start + num: undefined outside the pool. *)
(** SolverHelper.cpp:517-540. *)
Definition range_of (cs : list cut) (start num : nat) : option (list cut) :=
  if Nat.leb (start + num) (length cs) then Some (firstn num (skipn start cs)) else None.
(** Lines 517-610.  [P = None]: the solver pointer is NULL.  [now]: what the solver reports on entry.
    [numOverload]: [None] = negative.  OsiSolverInterface::applyCuts (line 541) is taken to add every cut
    of the pool (simplification: it may skip cuts it considers inconsistent or not effective). *)
Definition applyCutsCustom (ask : solver_oracle) (P : option lp) (now : lpans) (cs : list cut)
    (start : nat) (numOverload : option nat) (compare_obj : Q) : applied :=
  match P with
  | None => AppUndef                                   (* line 525: solver->getInfinity() *)
  | Some P =>
      let num := match numOverload with Some k => k | None => length cs end in
      let first := match now with LOptimal v => LOptimal v | _ => ask 0%nat P end in
      match first with
      | LOptimal init =>
          let compare := if isNegInfinity_default compare_obj then init else compare_obj in
          let chosen := if Nat.eqb num 0 then Some []
                        else if Nat.eqb start 0 && Nat.eqb num (length cs) then Some cs
                        else range_of cs start num in
          match chosen with
          | None => AppUndef
          | Some l =>
              let P' := add_rows P (map cut_row l) in
              match ask 1%nat P' with
              | LOptimal v =>
                  if Qltb v compare then
                    match ask 2%nat P' with LOptimal v' => Applied P' (Some v') | _ => Applied P' None end
                  else Applied P' (Some v)
              | LLimit => Applied P' None
              | _ => AppExit
              end
          end
      | _ => Applied P None
      end
  end.
(** restoreBaseModel(numRows): rows from [numRows] on are removed. *)
(** OsiClpSolverInterface::restoreBaseModel (external), SolverHelper.cpp:517-611. *)
Definition truncate_rows (P : lp) (k : nat) : lp :=
  {| ncols := ncols P; nrows := k; clo := clo P; cup := cup P; rows := rows P; obj := obj P |}.
(** Lines 627-645 [getObjValue]; the value or plus / minus infinity, and the problem left in the solver. *)
Inductive objval_ans := ObjFin (v : Q) | ObjPosInf | ObjNegInf | ObjExits | ObjUndefined.
(** SolverHelper.cpp:627-645. *)
Definition getObjValueWithCuts (ask : solver_oracle) (P : lp) (now : lpans) (cs : option (list cut)) : objval_ans * lp :=
  match cs with
  | Some (c :: r) =>
      match applyCutsCustom ask (Some P) now (c :: r) 0 None (- DBL_MAX) with
      | Applied P' (Some v) => (ObjFin v, truncate_rows P' (nrows P))
      | Applied P' None => (ObjPosInf, truncate_rows P' (nrows P))
      | AppExit => (ObjExits, P)
      | AppUndef => (ObjUndefined, P)
      end
  | _ => (match now with LOptimal v => ObjFin v | LInfeasible => ObjPosInf | _ => ObjNegInf end, P)
  end.
