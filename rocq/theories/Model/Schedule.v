(** PRLP::targetStrongAndDifferentCuts, src/cut/PRLP.cpp:1332-1697, with setupForTargetedCutGeneration
    (823-838), tryOneObjective (494-510) and updateStepForTargetedCutGeneration (845-895): which objectives are
    tried, in which order, and what is written into the PRLP.  Solving (genCut) is an oracle. *)
From Verif Require Export Model.LP Model.SolverHelper Model.TightOnPoint.
#[local] Open Scope Q_scope.

(** The answer of one solve: return code of genCut; isProvenOptimal; whether a row's activity equals its
    right-hand side, and whether a column value equals its lower / upper bound (isVal); objective value;
    column values; the candidate list that findCutsTightOnPoint would build from the basis (PRLP.cpp:1050-1140). *)
Record solved := { so_code : Z; so_optimal : bool; so_row : nat -> bool; so_lb : nat -> bool; so_ub : nat -> bool;
  so_obj : Q; so_sol : nat -> Q; so_cands : list nat }.

(** User parameters and the sizes they are scaled by.  [sp_probcols]: probData.num_cols. *)
(** PRLP.cpp:1340-1366. *)
Record sparams := { sp_allones : Z; sp_bilinear : Z; sp_disjlb : Z; sp_points : Z; sp_perpoint : Z; sp_rays : Z; sp_units : Z;
  sp_cutlimit : Z; sp_probcols : Z }.

(** [se_solve k]: answer of the k-th solve; [se_limit k]: one of the checks of the cut, time and failure
    limits succeeds once [k] solves are made (a simplification: it could also become true later, which only
    ends the function earlier); [se_dirs]: the sorted column order of lines 1515-1523 (sorting is external);
    [se_bil], [se_bilobj]: number of solves made inside iterateDeepestCutPostGomory and the objective it leaves. *)
Record senv := { se_tp : tpdata; se_rhs : nat -> Q; se_mode : nat; se_par : sparams; se_solve : nat -> solved; se_limit : nat -> bool;
  se_dirs : list nat; se_bil : nat; se_bilobj : nat -> Q }.

(** CglVPC.hpp ObjectiveType: the heuristics in the order used here.  [KPoint h first]: a solve made by
    findCutsTightOnPoint, the first one (objective = the point) or a later one. *)
(** CglVPC.hpp:79-94. *)
Inductive pheur := DISJ_LB | TIGHT_POINTS | TIGHT_POINTS2.
(** include/CglVPC.hpp:79-94 [ObjectiveType], refined by whether the solve is the first of findCutsTightOnPoint (PRLP.cpp:1130-1325). *)
Inductive kind := KAllOnes | KBilinear | KPoint (h : pheur) (first : bool) | KUnit | KRay | KRay2.
(** A solve: its kind, the row or column it is about, the objective and row bounds at that moment, and the
    column lower bounds. *)
(** The trace of solves (not in the code; one entry per call of genCut, PRLP.cpp:577-636). *)
Record tried := { tr_kind : kind; tr_index : nat; tr_st : pst; tr_lo : nat -> option Q }.

(** The PRLP (objective, row upper bounds, column lower bounds), the status arrays of rows and column bounds, the trace, and the local counters of PRLP.cpp:1332-1701. *)
Record sst := { ss_p : pst; ss_lo : nat -> option Q; ss_row : nat -> Z; ss_clb : nat -> Z; ss_cub : nat -> Z;
  ss_tr : list tried; ss_code : Z; ss_np : Z; ss_nr : Z }.
(** The PRLP's objective and row bounds are assigned (record update). *)
Definition with_p (s : sst) (p : pst) : sst :=
  {| ss_p := p; ss_lo := ss_lo s; ss_row := ss_row s; ss_clb := ss_clb s; ss_cub := ss_cub s; ss_tr := ss_tr s; ss_code := ss_code s;
     ss_np := ss_np s; ss_nr := ss_nr s |}.
(** The PRLP's column lower bounds are assigned (record update). *)
Definition with_lo (s : sst) (lo : nat -> option Q) : sst :=
  {| ss_p := ss_p s; ss_lo := lo; ss_row := ss_row s; ss_clb := ss_clb s; ss_cub := ss_cub s; ss_tr := ss_tr s; ss_code := ss_code s;
     ss_np := ss_np s; ss_nr := ss_nr s |}.
(** The status array of the rows is assigned (record update). *)
Definition with_row (s : sst) (r : nat -> Z) : sst :=
  {| ss_p := ss_p s; ss_lo := ss_lo s; ss_row := r; ss_clb := ss_clb s; ss_cub := ss_cub s; ss_tr := ss_tr s; ss_code := ss_code s;
     ss_np := ss_np s; ss_nr := ss_nr s |}.
(** num_points_tried and num_rays_tried are assigned (record update). *)
Definition with_counts (s : sst) (np nr : Z) : sst :=
  {| ss_p := ss_p s; ss_lo := ss_lo s; ss_row := ss_row s; ss_clb := ss_clb s; ss_cub := ss_cub s; ss_tr := ss_tr s; ss_code := ss_code s;
     ss_np := np; ss_nr := nr |}.
(** A solve is recorded (record update; the trace is not in the code). *)
Definition with_trace (s : sst) (t : list tried) : sst :=
  {| ss_p := ss_p s; ss_lo := ss_lo s; ss_row := ss_row s; ss_clb := ss_clb s; ss_cub := ss_cub s; ss_tr := t; ss_code := ss_code s;
     ss_np := ss_np s; ss_nr := ss_nr s |}.

(** PRLP.cpp:856-863, 872-890: one counter after a solve. *)
Definition bump (v : Z) (tight : bool) : Z := if tight then (if (0 <=? v)%Z then v + 1 else v - 1)%Z else v.
(** PRLP.cpp:506-509: counters are updated only when the solve is proven optimal. *)
Definition bump_all (a : solved) (s : sst) : sst :=
  if so_optimal a then
    {| ss_p := ss_p s; ss_lo := ss_lo s; ss_row := fun i => bump (ss_row s i) (so_row a i); ss_clb := fun i => bump (ss_clb s i) (so_lb a i);
       ss_cub := fun i => bump (ss_cub s i) (so_ub a i); ss_tr := ss_tr s; ss_code := ss_code s; ss_np := ss_np s; ss_nr := ss_nr s |}
  else s.
(** PRLP.cpp:494-510 with the caller storing the return code in return_code. *)
Definition tryOne (E : senv) (k : kind) (idx : nat) (s : sst) : sst :=
  let a := se_solve E (length (ss_tr s)) in
  let s := bump_all a s in
  {| ss_p := ss_p s; ss_lo := ss_lo s; ss_row := ss_row s; ss_clb := ss_clb s; ss_cub := ss_cub s;
     ss_tr := ss_tr s ++ [{| tr_kind := k; tr_index := idx; tr_st := ss_p s; tr_lo := ss_lo s |}]; ss_code := so_code a;
     ss_np := ss_np s; ss_nr := ss_nr s |}.

(** The abandonment test, e.g. lines 1390-1393. *)
Definition abandon (E : senv) (s : sst) : bool := Z.eqb (ss_code s) BAD_RETURN_CODE || se_limit E (length (ss_tr s)).

(** Lines 1357-1366: the budgets; std::ceil(std::sqrt(n)) is [Z.sqrt_up n]. *)
Definition max_per_point (p : sparams) : Z := if (sp_perpoint p <? 0)%Z then (- sp_perpoint p * sp_cutlimit p)%Z else sp_perpoint p.
(** PRLP.cpp:1357-1361. *)
Definition max_rays (p : sparams) (nrays : nat) : Z :=
  if (sp_rays p <? 0)%Z then (- sp_rays p * Z.sqrt_up (Z.of_nat nrays))%Z else sp_rays p.
(** PRLP.cpp:1362-1366. *)
Definition max_units (p : sparams) (ncols : nat) : Z :=
  if (sp_units p <? 0)%Z then (- sp_units p * Z.sqrt_up (sp_probcols p))%Z else Z.min (Z.of_nat ncols) (sp_units p).

(** Lines 823-838: the rows of the PRLP with non-zero right-hand side are the points, the others the rays, both
    in row order. *)
Definition pointIndex (E : senv) : list nat := filter (fun i => negb (isZero (se_rhs E i) EPS7)) (seq 0 (tp_nrows (se_tp E))).
(** PRLP.cpp:823-838: the rows with zero right-hand side. *)
Definition rayIndex (E : senv) : list nat := filter (fun i => isZero (se_rhs E i) EPS7) (seq 0 (tp_nrows (se_tp E))).

(** What findCutsTightOnPoint sees of the solve number [k0 + j]; lines 1231-1251: a candidate has changed when
    one of the solves after the first one made it tight. *)
Definition idx_tight (d : tpdata) (a : solved) (idx : nat) : bool :=
  if Nat.ltb idx (tp_nrows d) then so_row a idx
  else if Nat.ltb idx (tp_nrows d + tp_ncols d) then so_lb a (idx - tp_nrows d)
  else so_ub a (idx - tp_nrows d - tp_ncols d).
(** PRLP.cpp:1130-1325: the answers as seen by one call, numbered from its first solve. *)
Definition ask_from (E : senv) (k0 point : nat) (j : nat) : tans :=
  let a := se_solve E (k0 + j) in
  {| ta_code := so_code a; ta_point_tight := so_optimal a && so_row a point;
     ta_changed := fun idx => existsb (fun i => so_optimal (se_solve E (k0 + i)) && idx_tight (se_tp E) (se_solve E (k0 + i)) idx) (seq 1 j);
     ta_tight_now := idx_tight (se_tp E) a; ta_limit := se_limit E (k0 + S j) |}.
(** A call of findCutsTightOnPoint: return value and state.  Line 1455 and others do not store its return
    code in return_code. *)
Definition tightOnPoint (E : senv) (h : pheur) (row : nat) (s : sst) : option (bool * sst) :=
  let k0 := length (ss_tr s) in
  match findCutsTightOnPoint (se_tp E) (ask_from E k0 row) row (se_mode E) (so_cands (se_solve E k0)) (Z.to_nat (max_per_point (se_par E))) (ss_p s) with
  | None => None
  | Some (good, p', sts) =>
      let entry first st := {| tr_kind := KPoint h first; tr_index := row; tr_st := st; tr_lo := ss_lo s |} in
      let new := match sts with [] => [] | st :: r => entry true st :: map (entry false) r end in
      let s' := fold_left (fun s j => bump_all (se_solve E (k0 + j)) s) (seq 0 (length sts)) s in
      Some (good, with_trace (with_p s' p') (ss_tr s ++ new))
  end.

(** Blocks return [Some (true, s)] to go on and [Some (false, s)] when the function returns. *)
(** Lines 1369-1395. *)
Definition blockAllOnes (E : senv) (s : sst) : option (bool * sst) :=
  if (sp_allones (se_par E) =? 1)%Z then
    let s1 := with_p s (with_obj (ss_p s) (setConstantObjective (tp_ncols (se_tp E)) 1 None (ps_obj (ss_p s)))) in
    let s2 := tryOne E KAllOnes 0 s1 in
    let s3 := with_p s2 (reset_all (se_tp E) (ss_p s2)) in
    Some (negb (abandon E s3), s3)
  else Some (true, s).
(** Lines 1398-1423: iterateDeepestCutPostGomory is opaque: it makes [se_bil] solves and leaves any objective;
    return_code keeps its old value. *)
Definition blockBilinear (E : senv) (s : sst) : option (bool * sst) :=
  if (1 <=? sp_bilinear (se_par E))%Z then
    let e := {| tr_kind := KBilinear; tr_index := 0; tr_st := ss_p s; tr_lo := ss_lo s |} in
    let s1 := with_trace (with_p s (with_obj (ss_p s) (se_bilobj E))) (ss_tr s ++ repeat e (se_bil E)) in
    let s2 := with_p s1 (reset_all (se_tp E) (ss_p s1)) in
    Some (negb (abandon E s2), s2)
  else Some (true, s).
(** Lines 1441-1467; [lb] = disj_lb_row_ind = pointIndex[0] (line 1441: undefined when there is no point). *)
Definition blockDisjLB (E : senv) (lb : nat) (s : sst) : option (bool * sst) :=
  if (0 <? sp_disjlb (se_par E))%Z then
    match tightOnPoint E DISJ_LB lb s with
    | None => None
    | Some (good, s1) => Some (good && negb (abandon E s1), s1)
    end
  else Some (true, s).
(** Lines 1481-1502: the loop over points 1, ..., size-2; [good]: goodReturn. *)
Fixpoint loopPoints (E : senv) (good : bool) (pts : list nat) (s : sst) : option (bool * sst) :=
  match pts with
  | [] => Some (true, s)
  | row :: r =>
      if negb good || abandon E s then Some (false, s)
      else if (sp_points (se_par E) <=? ss_np s)%Z then Some (true, s)
      else if negb (ss_row s row =? 0)%Z then loopPoints E good r s
      else match tightOnPoint E TIGHT_POINTS row (with_counts s (ss_np s + 1) (ss_nr s)) with
           | None => None
           | Some (good', s') => loopPoints E good' r s'
           end
  end.
(** PRLP.cpp:1504-1508 and the like: after a block the limits are tested before going on. *)
Definition check_go (E : senv) (r : option (bool * sst)) : option (bool * sst) :=
  match r with Some (true, s) => Some (negb (abandon E s), s) | _ => r end.
(** Lines 1470-1511. *)
Definition blockPoints (E : senv) (s : sst) : option (bool * sst) :=
  check_go E (if (0 <? sp_points (se_par E))%Z then loopPoints E true (removelast (tl (pointIndex E))) s else Some (true, s)).
(** Lines 1534-1554: one column; setObjCoeff before and after, and the new lower bound when the solve is
    optimal and the value exceeds the old bound. *)
Definition unitStep (E : senv) (j : nat) (s : sst) : sst :=
  let s1 := with_p s (with_obj (ss_p s) (upd (ps_obj (ss_p s)) j 1)) in
  let a := se_solve E (length (ss_tr s1)) in
  let s2 := tryOne E KUnit j s1 in
  let above_lo := match ss_lo s2 j with None => true | Some l => greaterThanVal (so_sol a j) l EPS7 end in
  let s3 := if so_optimal a && above_lo then with_lo s2 (upd (ss_lo s2) j (Some (so_obj a))) else s2 in
  with_p s3 (with_obj (ss_p s3) (upd (ps_obj (ss_p s3)) j 0)).
(** Lines 1525-1555; [n]: num_unit_vectors_tried. *)
Fixpoint loopUnits (E : senv) (dirs : list nat) (n : Z) (s : sst) : option (bool * sst) :=
  match dirs with
  | [] => Some (true, s)
  | j :: r =>
      if (max_units (se_par E) (tp_ncols (se_tp E)) <=? n)%Z then Some (true, s)
      else if abandon E s then Some (false, s)
      else if negb (ss_clb s j =? 0)%Z then loopUnits E r n s
      else loopUnits E r (n + 1)%Z (unitStep E j s)
  end.
(** Lines 1505-1563. *)
Definition blockUnits (E : senv) (s : sst) : option (bool * sst) :=
  check_go E (if (0 <? max_units (se_par E) (tp_ncols (se_tp E)))%Z then loopUnits E (se_dirs E) 0 s else Some (true, s)).
(** Lines 1592-1605: one ray of the first pass; a failing one is marked as never to be retried. *)
Definition rayStep (E : senv) (k : kind) (row : nat) (s : sst) : sst :=
  let v := tp_row (se_tp E) row in
  let s1 := with_p (with_counts s (ss_np s) (ss_nr s + 1)) (add_vec (se_tp E) v 1 false (ss_p s)) in
  let s2 := tryOne E k row s1 in
  let s3 := match k with
            | KRay => if (ss_code s2 <? 0)%Z then with_row s2 (upd (ss_row s2) row (- (ss_row s2 row + 1))%Z) else s2
            | _ => s2
            end in
  with_p s3 (reset_at (se_tp E) v (ss_p s3)).
(** PRLP.cpp:1585-1612: the first pass over the rays. *)
Fixpoint loopRays (E : senv) (rays : list nat) (s : sst) : option (bool * sst) :=
  match rays with
  | [] => Some (true, s)
  | row :: r =>
      if (max_rays (se_par E) (length (rayIndex E)) <=? ss_nr s)%Z then Some (true, s)
      else if abandon E s then Some (false, s)
      else if negb (ss_row s row =? 0)%Z then loopRays E r s
      else loopRays E r (rayStep E KRay row s)
  end.
(** Lines 1566-1614. *)
Definition blockRays (E : senv) (s : sst) : option (bool * sst) :=
  check_go E (if (0 <? max_rays (se_par E) (length (rayIndex E)))%Z then loopRays E (rayIndex E) s else Some (true, s)).
(** Lines 1616-1658: the points again, all of them except the first. *)
Fixpoint loopPoints2 (E : senv) (lb : nat) (good : bool) (pts : list nat) (s : sst) : option (bool * sst) :=
  match pts with
  | [] => Some (true, s)
  | row :: r =>
      if negb good || abandon E s then Some (false, s)
      else if (sp_points (se_par E) <=? ss_np s)%Z then Some (true, s)
      else if (ss_row s row <? 0)%Z then loopPoints2 E lb good r s
      else if Nat.eqb row lb then loopPoints2 E lb good r s
      else match tightOnPoint E TIGHT_POINTS2 row (with_counts s (ss_np s + 1) (ss_nr s)) with
           | None => None
           | Some (good', s') => loopPoints2 E lb good' r s'
           end
  end.
(** PRLP.cpp:1616-1658. *)
Definition blockPoints2 (E : senv) (lb : nat) (s : sst) : option (bool * sst) :=
  check_go E (if (ss_np s <? sp_points (se_par E))%Z then loopPoints2 E lb true (pointIndex E) s else Some (true, s)).
(** Lines 1660-1695: the rays again. *)
Fixpoint loopRays2 (E : senv) (rays : list nat) (s : sst) : option (bool * sst) :=
  match rays with
  | [] => Some (true, s)
  | row :: r =>
      if abandon E s then Some (false, s)
      else if (max_rays (se_par E) (length (rayIndex E)) <=? ss_nr s)%Z then Some (true, s)
      else if (ss_row s row <? 0)%Z then loopRays2 E r s
      else loopRays2 E r (rayStep E KRay2 row s)
  end.
(** PRLP.cpp:1660-1695. *)
Definition blockRays2 (E : senv) (s : sst) : option (bool * sst) :=
  if (ss_nr s <? max_rays (se_par E) (length (rayIndex E)))%Z then loopRays2 E (rayIndex E) s else Some (true, s).

(** One block after the other, PRLP.cpp:1332-1701; a block may return. *)
Definition andthen (r : option (bool * sst)) (f : sst -> option (bool * sst)) : option (bool * sst) :=
  match r with Some (true, s) => f s | _ => r end.

(** Lines 1332-1697.  The entry test (1336-1339) is [se_limit E 0]; the re-solve of 1425-1436 keeps the
    data.  Line 1441 reads pointIndex[0] once the function gets there. *)
Definition targetStrongAndDifferentCuts (E : senv) (p : pst) (lo : nat -> option Q) : option sst :=
  let s0 := {| ss_p := p; ss_lo := lo; ss_row := fun _ => 0%Z; ss_clb := fun _ => 0%Z; ss_cub := fun _ => 0%Z; ss_tr := []; ss_code := 0%Z;
               ss_np := 0%Z; ss_nr := 0%Z |} in
  if se_limit E 0 then Some s0
  else
    match andthen (blockAllOnes E s0) (blockBilinear E) with
    | None => None
    | Some (false, s) => Some s
    | Some (true, s) =>
        match pointIndex E with
        | [] => None
        | lb :: _ =>
            option_map snd
              (andthen (andthen (andthen (andthen (andthen (blockDisjLB E lb s) (blockPoints E)) (blockUnits E)) (blockRays E))
                 (blockPoints2 E lb)) (blockRays2 E))
        end
    end.
