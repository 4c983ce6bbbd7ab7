(** Statistics vectors: src/utility/utility.cpp:45-155 and include/common/utility.hpp:148-183.
    Doubles are modelled as real numbers (a square root is taken), the counters
    [Stat::num] and [Stat::num_nonzero] as integers. *)
From Coq Require Export Reals List ZArith Lra Lia.
Export ListNotations.
Open Scope R_scope.

(** utility.hpp:149 [enum class Stat]; the StatVector becomes a record. *)
Record stat := mkStat { s_total : R; s_avg : R; s_stddev : R; s_min : R; s_max : R;
                        s_num : Z; s_nonzero : Z }.

(** utility.hpp:229-236 [isZero] with the default tolerance 1e-7. *)
Definition isZeroR (v : R) : bool := if Rlt_dec (Rabs v) (/ 10000000) then true else false.

(** utility.cpp:60-64 [initializeStats]. *)
Definition initializeStats (minpos maxpos : R) : stat :=
  mkStat 0 0 0 maxpos minpos 0 0.

(** utility.cpp:95-115 [updateStatsBeforeFinalize] (argument [size], default -1). *)
Definition updateStatsBeforeFinalize (s : stat) (val : R) (size : Z) : stat :=
  let divisor := if (size >=? 0)%Z then IZR size else 1 in
  let tot := s_total s + val in
  mkStat tot (tot / divisor) (s_stddev s + val * val / divisor)
         (Rmin (s_min s) val) (Rmax (s_max s) val)
         (s_num s + 1)%Z
         (if isZeroR val then s_nonzero s else s_nonzero s + 1)%Z.

(** utility.cpp:122-130 [finalizeStats]. *)
Definition finalizeStats (s : stat) (size : Z) : stat :=
  let divisor := if (size >? 0)%Z then IZR size
                 else if (size =? 0)%Z then 1 else IZR (s_num s) in
  let avg := s_total s / divisor in
  let var := s_stddev s / divisor - avg * avg in
  mkStat (s_total s) avg (if Rlt_dec 0 var then sqrt var else 0)
         (s_min s) (s_max s) (s_num s) (s_nonzero s).

(** utility.cpp:139-161 [unfinalizeStats]; [None] = the assertion at line 153 fails. *)
Definition unfinalizeStats (s : stat) (prev_size : Z) : option stat :=
  let old := if (prev_size >? 0)%Z then prev_size else s_num s in
  if (old =? 0)%Z then Some s
  else if Rlt_dec (Rabs (s_total s / IZR old - s_avg s)) (/ 1000) then
    Some (mkStat (s_total s) (s_avg s * IZR old)
            ((s_stddev s * s_stddev s + s_avg s * s_avg s) * IZR old)
            (s_min s) (s_max s) (s_num s) (s_nonzero s))
  else None.

(** utility.cpp:71-88 [updateAndFinalizeStats]. *)
Definition updateAndFinalizeStats (s : stat) (vals : list R) (prev_size : Z) : option stat :=
  match vals with
  | [] => Some s
  | _ =>
      let new_size := (prev_size + Z.of_nat (length vals))%Z in
      let s1 := if (prev_size =? 0)%Z then Some s
                else unfinalizeStats s (if (prev_size >? 0)%Z then prev_size else s_num s) in
      match s1 with
      | None => None
      | Some s1 =>
          Some (finalizeStats (fold_left (fun s v => updateStatsBeforeFinalize s v (-1)) vals s1) new_size)
      end
  end.

(** utility.cpp:48-57 [computeStats] (default bounds of initializeStats, utility.hpp:165-169:
    MIN_POSSIBLE_VAL = 0, MAX_POSSIBLE_VAL = DBL_MAX given as [maxpos]). *)
Definition computeStats (maxpos : R) (vals : list R) : option stat :=
  match vals with
  | [] => Some (mkStat 0 0 0 0 0 0 0)
  | _ => updateAndFinalizeStats (initializeStats 0 maxpos) vals 0
  end.
