(** Statistics about cuts and disjunctions that the main program reports: src/test/analysis.cpp, and the round of cuts of
    mode CUSTOM, src/main.cpp:1217-1305. *)
From Verif Require Export Model.LP Model.Generator.
#[local] Open Scope Q_scope.

(** INT_MAX, the initial min_support. *)
(** analysis.hpp:66-80. *)
Definition NO_SUPPORT : Z := 2147483647.
(** analysis.hpp:66-80 [SummaryCutInfo].  Counter vectors are functions from the enum value; [None]: the vector is empty
    (reading it is undefined).  avg_support: [None] is a NaN. *)
Record cutinfo := { ci_num : Z; ci_ag : Z; ci_av : Z; ci_aa : Z; ci_obj : Z; ci_fail : Z; ci_rounds : Z; ci_min : Z; ci_max : Z;
  ci_avg : option Q; ci_type : list cuttype; ci_heur : list objtype;
  ci_ntype : option (cuttype -> Z); ci_nheur : option (objtype -> Z); ci_nobj : option (objtype -> Z);
  ci_nfailheur : option (objtype -> Z); ci_nact : option (objtype -> Z); ci_nfails : option (nat -> Z) }.
(** analysis.hpp:66-80: a new SummaryCutInfo. *)
Definition ci_new : cutinfo := {| ci_num := 0; ci_ag := 0; ci_av := 0; ci_aa := 0; ci_obj := 0; ci_fail := 0; ci_rounds := 0; ci_min := NO_SUPPORT; ci_max := 0;
  ci_avg := Some 0; ci_type := []; ci_heur := []; ci_ntype := None; ci_nheur := None; ci_nobj := None; ci_nfailheur := None; ci_nact := None; ci_nfails := None |}.

(** analysis.cpp:799-818: the elements, minus those that count as zero.  (Minimum and maximum support are not touched: the
    statements that did are commented out.) *)
Definition checkCutDensity (c : cut) (eps : Q) : Z :=
  fold_left (fun n e => if isZero (snd e) eps then (n - 1)%Z else n) (crow c) (Z.of_nat (length (crow c))).
(** 821-830; [sol]: the solution, [None] when there is no solver or it is not optimal. *)
Definition checkCutActivity (sol : option (nat -> Q)) (c : cut) : bool :=
  match sol with Some x => isVal (pdot (crow c) x) (crhs c) EPS7 | None => false end.
(** 833-852. *)
Definition checkCutsAgainstFeasibleSolution (cs : list cut) (x : nat -> Q) : nat :=
  fold_left (fun n c => if lessThanVal (pdot (crow c) x) (crhs c) EPS7 then S n else n) cs 0%nat.

(** analysis.cpp:833-852: the sum of the supports. *)
Definition total_support (eps : Q) (cs : list cut) : Z := fold_left (fun n c => (n + checkCutDensity c eps)%Z) cs 0%Z.
(** "(avg * old + total) / n" in doubles: 0/0 is a NaN and stays one (the other quotients by 0 do not occur). *)
(** analysis.cpp:1268-1346 [updateCutInfo]. *)
Definition new_average (avg : option Q) (old total n : Z) : option Q :=
  match avg with
  | None => None
  | Some a => if (n =? 0)%Z then None else Some ((a * inject_Z old + inject_Z total) / inject_Z n)
  end.
(** 1241-1260 [updateGMICInfo], with a pool given. *)
Definition updateGMICInfo (i : cutinfo) (cs : list cut) (eps : Q) : cutinfo :=
  let k := Z.of_nat (length cs) in
  {| ci_num := ci_num i + k; ci_ag := ci_ag i; ci_av := ci_av i; ci_aa := ci_aa i; ci_obj := ci_obj i; ci_fail := ci_fail i; ci_rounds := ci_rounds i;
     ci_min := ci_min i; ci_max := ci_max i; ci_avg := new_average (ci_avg i) (ci_num i) (total_support eps cs) (ci_num i + k);
     ci_type := ci_type i ++ repeat GMIC (length cs); ci_heur := ci_heur i; ci_ntype := ci_ntype i; ci_nheur := ci_nheur i; ci_nobj := ci_nobj i;
     ci_nfailheur := ci_nfailheur i; ci_nact := ci_nact i; ci_nfails := ci_nfails i |}.

(** Adding a counter vector of the generator to one of the summary, or copying it if that one is empty. *)
(** analysis.cpp:1268-1346 and 1351-1419. *)
Definition add_vec {A} (a : option (A -> Z)) (b : A -> Z) : option (A -> Z) :=
  match a with Some f => Some (fun x => (f x + b x)%Z) | None => Some b end.
(** The three vectors of 1301-1310 are treated together: the size of the first decides. *)
Definition add_vec_as {A} (a0 a : option (A -> Z)) (b : A -> Z) : option (A -> Z) :=
  match a0 with Some _ => match a with Some f => Some (fun x => (f x + b x)%Z) | None => None end | None => Some b end.
(** 1268-1346 [updateCutInfo] with the pool [cs] given; [None]: exit(1). *)
Definition updateCutInfo (i : cutinfo) (g : gstate) (cs : list cut) (eps : Q) : option cutinfo :=
  let n := g_num_cuts g in
  let sz := length cs in
  if Nat.ltb sz n then None
  else if Nat.ltb n sz && negb (Z.of_nat sz =? ci_num i + Z.of_nat n)%Z then None
  else
    let last := skipn (sz - n) cs in
    Some {| ci_num := ci_num i + Z.of_nat n; ci_ag := ci_ag i; ci_av := ci_av i; ci_aa := ci_aa i;
            ci_obj := ci_obj i + Z.of_nat (g_num_obj g); ci_fail := ci_fail i + Z.of_nat (g_num_fail g); ci_rounds := ci_rounds i;
            ci_min := ci_min i; ci_max := ci_max i; ci_avg := new_average (ci_avg i) (ci_num i) (total_support eps last) (ci_num i + Z.of_nat sz);
            ci_type := if g_repeat g then g_type g else ci_type i ++ g_type g;
            ci_heur := if g_repeat g then g_heur g else ci_heur i ++ g_heur g;
            ci_ntype := add_vec (ci_ntype i) (g_ntype g);
            ci_nheur := add_vec_as (ci_nheur i) (ci_nheur i) (g_nheur g); ci_nobj := add_vec_as (ci_nheur i) (ci_nobj i) (g_nobj g);
            ci_nfailheur := add_vec_as (ci_nheur i) (ci_nfailheur i) (g_nfailheur g); ci_nact := ci_nact i;
            ci_nfails := add_vec (ci_nfails i) (g_nfails g) |}.

(** 1351-1419 [setCutInfo]; [None]: an empty vector or a missing label is read.  min/max/avg support are not touched. *)
Definition vec_sum {A} (acc : option (A -> Z)) (v : option (A -> Z)) : option (A -> Z) :=
  match acc, v with Some f, Some g => Some (fun x => (f x + g x)%Z) | _, _ => None end.
(** analysis.cpp:1351-1419: one earlier round is added. *)
Definition merge_one (acc : option cutinfo) (o : cutinfo) : option cutinfo :=
  match acc with
  | None => None
  | Some a =>
      match vec_sum (ci_ntype a) (ci_ntype o), vec_sum (ci_nheur a) (ci_nheur o), vec_sum (ci_nobj a) (ci_nobj o),
            vec_sum (ci_nfailheur a) (ci_nfailheur o), vec_sum (ci_nfails a) (ci_nfails o) with
      | Some t, Some h, Some ob, Some fh, Some f =>
          Some {| ci_num := ci_num a + ci_num o; ci_ag := ci_ag a + ci_ag o; ci_av := ci_av a + ci_av o; ci_aa := ci_aa a + ci_aa o;
                  ci_obj := ci_obj a + ci_obj o; ci_fail := ci_fail a + ci_fail o; ci_rounds := ci_rounds a; ci_min := ci_min a; ci_max := ci_max a; ci_avg := ci_avg a;
                  ci_type := ci_type a; ci_heur := ci_heur a; ci_ntype := Some t; ci_nheur := Some h; ci_nobj := Some ob; ci_nfailheur := Some fh;
                  ci_nact := match ci_nact o with None => ci_nact a | Some _ => vec_sum (ci_nact a) (ci_nact o) end; ci_nfails := Some f |}
      | _, _, _, _, _ => None
      end
  end.
(** The first num_cuts labels of every round; [None]: there are not that many. *)
(** analysis.cpp:1351-1419. *)
Fixpoint take_labels {A} (l : list (Z * list A)) : option (list A) :=
  match l with
  | [] => Some []
  | (n, x) :: r =>
      if (Z.of_nat (length x) <? n)%Z then None
      else match take_labels r with Some y => Some (firstn (Z.to_nat n) x ++ y) | None => None end
  end.
(** analysis.cpp:1351-1419: the labels and the number of rounds are assigned (record update). *)
Definition set_labels (i : cutinfo) (rounds : Z) (t : list cuttype) (h : list objtype) : cutinfo :=
  {| ci_num := ci_num i; ci_ag := ci_ag i; ci_av := ci_av i; ci_aa := ci_aa i; ci_obj := ci_obj i; ci_fail := ci_fail i; ci_rounds := rounds; ci_min := ci_min i; ci_max := ci_max i;
     ci_avg := ci_avg i; ci_type := t; ci_heur := h; ci_ntype := ci_ntype i; ci_nheur := ci_nheur i; ci_nobj := ci_nobj i; ci_nfailheur := ci_nfailheur i; ci_nact := ci_nact i; ci_nfails := ci_nfails i |}.
(** analysis.cpp:1351-1419: the counters are set to zero first (record update). *)
Definition cleared (i : cutinfo) (rounds : Z) : cutinfo :=
  {| ci_num := 0; ci_ag := 0; ci_av := 0; ci_aa := 0; ci_obj := 0; ci_fail := 0; ci_rounds := rounds; ci_min := ci_min i; ci_max := ci_max i; ci_avg := ci_avg i;
     ci_type := []; ci_heur := []; ci_ntype := Some (fun _ => 0%Z); ci_nheur := Some (fun _ => 0%Z); ci_nobj := Some (fun _ => 0%Z); ci_nfailheur := Some (fun _ => 0%Z);
     ci_nact := Some (fun _ => 0%Z); ci_nfails := Some (fun _ => 0%Z) |}.
(** analysis.cpp:1351-1419. *)
Definition setCutInfo (i : cutinfo) (olds : list cutinfo) : option cutinfo :=
  let c := cleared i (Z.of_nat (length olds)) in
  match fold_left merge_one olds (Some c) with
  | None => None
  | Some m =>
      match take_labels (map (fun o => (ci_num o, ci_type o)) olds), take_labels (map (fun o => (ci_num o, ci_heur o)) olds) with
      | Some t, Some h => Some (set_labels m (Z.of_nat (length olds)) t h)
      | _, _ => None
      end
  end.

(** ** 860-915 [analyzeStrength]: the counters (the text it builds is not modelled). *)
Definition count_active (sol : option (nat -> Q)) (cs : list cut) : Z :=
  fold_left (fun n c => if checkCutActivity sol c then (n + 1)%Z else n) cs 0%Z.
(** 893-896: objType[cut_ind] of an active VPC; [None]: no such entry. *)
Fixpoint active_heur (sol : option (nat -> Q)) (cs : list cut) (hs : list objtype) (f : objtype -> Z) : option (objtype -> Z) :=
  match cs with
  | [] => Some f
  | c :: r =>
      if checkCutActivity sol c
      then match hs with h :: hs' => active_heur sol r hs' (bump objtype_eqb f h 1) | [] => None end
      else active_heur sol r (tl hs) f
  end.
(** analysis.cpp:855-935: the counts of active cuts are assigned (record update). *)
Definition set_activity (i : cutinfo) (num : Z) (ag av aa : Z) (avg : option Q) (nact : option (objtype -> Z)) : cutinfo :=
  {| ci_num := num; ci_ag := ag; ci_av := av; ci_aa := aa; ci_obj := ci_obj i; ci_fail := ci_fail i; ci_rounds := ci_rounds i; ci_min := ci_min i; ci_max := ci_max i;
     ci_avg := avg; ci_type := ci_type i; ci_heur := ci_heur i; ci_ntype := ci_ntype i; ci_nheur := ci_nheur i; ci_nobj := ci_nobj i; ci_nfailheur := ci_nfailheur i;
     ci_nact := nact; ci_nfails := ci_nfails i |}.
(** The solutions of the three solvers; GMICs [None] when GOMORY = 0.  Result: statistics of GMICs and of VPCs. *)
(** analysis.cpp:860-912. *)
Definition analyzeStrength (eps : Q) (xg xv xa : option (nat -> Q)) (ig iv : cutinfo) (gmics : option (list cut)) (vpcs : list cut) : option (cutinfo * cutinfo) :=
  match active_heur xv vpcs (ci_heur iv) (match ci_nact iv with Some f => f | None => fun _ => 0%Z end) with
  | None => None
  | Some f =>
      let avg cs := new_average (Some 0) 0 (total_support eps cs) (Z.of_nat (length cs)) in
      let iv' := set_activity iv (ci_num iv) (count_active xg vpcs) (count_active xv vpcs) (count_active xa vpcs) (avg vpcs) (Some f) in
      let ig' := match gmics with
                 | None => set_activity ig (ci_num ig) 0 0 0 (ci_avg ig) (ci_nact ig)
                 | Some cs => set_activity ig (Z.of_nat (length cs)) (count_active xg cs) (count_active xv cs) (count_active xa cs) (avg cs) (ci_nact ig)
                 end in
      Some (ig', iv')
  end.

(** ** 1201-1233 [updateDisjInfo].  What it reads of each disjunction, and of the one PRLP the generator holds. *)
Record dinfo := { dd_int : bool; dd_terms : Z; dd_tree : option (Z * Z * Z * Z) (* explored, pruned, min and max depth *) }.
(** PRLPData and tree statistics read by updateDisjInfo, analysis.cpp:1201-1233. *)
Record pinfo := { pp_density : Q; pp_rows : Z; pp_cols : Z; pp_points : Z; pp_rays : Z }.
(** analysis.hpp:51-64. *)
Record disjinfo := { di_num : Z; di_int : Z; di_terms : Q; di_density : Q; di_rows : Q; di_cols : Q; di_points : Q; di_rays : Q;
  di_expl : Q; di_pruned : Q; di_mind : Q; di_maxd : Q }.
(** analysis.hpp:51-64: a new SummaryDisjunctionInfo. *)
Definition di_new : disjinfo := Build_disjinfo 0 0 0 0 0 0 0 0 0 0 0 0.
(** "(avg * (num_disj - 1) + val) / num_disj". *)
(** analysis.cpp:1201-1233. *)
Definition step_avg (k : Z) (avg val : Q) : Q := (avg * inject_Z (k - 1) + val) / inject_Z k.
(** analysis.cpp:1201-1233 [updateDisjInfo]: one disjunction. *)
Definition disj_step (k : Z) (p : pinfo) (i : disjinfo) (d : dinfo) : disjinfo :=
  let tree (old : Q) (v : Z * Z * Z * Z -> Z) := match dd_tree d with Some t => old + step_avg k old (inject_Z (v t)) | None => old end in
  {| di_num := di_num i; di_int := if dd_int d then (di_int i + 1)%Z else di_int i;
     di_terms := step_avg k (di_terms i) (inject_Z (dd_terms d)); di_density := step_avg k (di_density i) (pp_density p);
     di_rows := di_rows i + step_avg k (di_rows i) (inject_Z (pp_rows p)); di_cols := di_cols i + step_avg k (di_cols i) (inject_Z (pp_cols p));
     di_points := di_points i + step_avg k (di_points i) (inject_Z (pp_points p)); di_rays := di_rays i + step_avg k (di_rays i) (inject_Z (pp_rays p));
     di_expl := tree (di_expl i) (fun t => fst (fst (fst t))); di_pruned := tree (di_pruned i) (fun t => snd (fst (fst t)));
     di_mind := tree (di_mind i) (fun t => snd (fst t)); di_maxd := tree (di_maxd i) snd |}.
(** analysis.cpp:1201-1233. *)
Definition updateDisjInfo (i : disjinfo) (num_disj : Z) (p : option pinfo) (ds : list dinfo) : disjinfo :=
  if (num_disj <=? 0)%Z then i
  else match p with
       | None => i
       | Some p =>
           fold_left (disj_step num_disj p) ds
             {| di_num := num_disj; di_int := di_int i; di_terms := di_terms i; di_density := di_density i; di_rows := di_rows i; di_cols := di_cols i;
                di_points := di_points i; di_rays := di_rays i; di_expl := di_expl i; di_pruned := di_pruned i; di_mind := di_mind i; di_maxd := di_maxd i |}
       end.

(** ** The counting of mode CUSTOM, main.cpp:1264-1291: one call of the generator per disjunction, all into one pool.
    [states]: the generator after each call (its [g_cuts] is the pool). *)
Fixpoint custom_round (eps : Q) (i : cutinfo) (num_vpc : Z) (states : list gstate) : option (cutinfo * Z) :=
  match states with
  | [] => Some (i, num_vpc)
  | g :: r =>
      match updateCutInfo i g (map ec (g_cuts g)) eps with
      | None => None
      | Some i' => custom_round eps i' (num_vpc + Z.of_nat (g_num_cuts g)) r
      end
  end.

(** main.cpp:1265-1267: the share of the cut limit of each disjunction ("std::ceil" of a quotient of ints). *)
Definition custom_limit (limit num_disj : Z) : Z := Z.quot limit num_disj.
