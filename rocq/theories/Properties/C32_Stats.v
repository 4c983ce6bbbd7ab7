(** C32: incremental statistics equal batch statistics, and are the textbook ones. *)
From Verif Require Import Model.Stats Spec.StatsSpec Proofs.StatsP.
From Coq Require Import Reals List ZArith Lra.
Import ListNotations.
Open Scope R_scope.

(** Batch statistics are the textbook ones; min is the minimum (values at most the largest
    double), max is the maximum provided no value is below MIN_POSSIBLE_VAL = 0. *)
Theorem computeStats_correct : forall maxpos l,
  l <> [] -> (forall x, In x l -> x <= maxpos) ->
  exists s, computeStats maxpos l = Some s /\
    s_total s = Rsum l /\ s_avg s = mean l /\ s_stddev s = std_dev l /\
    is_min (s_min s) l /\ s_num s = Z.of_nat (length l) /\
    s_nonzero s = Z.of_nat (length (filter (fun x => negb (isZeroR x)) l)) /\
    ((forall x, In x l -> 0 <= x) -> is_max (s_max s) l).
Proof.
  intros maxpos l Hl Hmax. exists (finished maxpos 0 l).
  assert (E : computeStats maxpos l = Some (finished maxpos 0 l)).
  { destruct l as [|v l']; [congruence|]. unfold computeStats. apply update_first_eq. discriminate. }
  split; [exact E|]. split; [reflexivity|]. split; [reflexivity|]. split; [reflexivity|].
  split; [apply finished_min; assumption|]. split; [reflexivity|]. split; [reflexivity|].
  intro H. apply finished_max; assumption.
Qed.
Print Assumptions computeStats_correct.

(** REFUTED for data with only negative values: the maximum starts at zero. *)
Theorem computeStats_max_refuted : forall maxpos, exists l s,
  l <> [] /\ computeStats maxpos l = Some s /\ ~ In (s_max s) l.
Proof.
  intro maxpos. exists [-1], (finished maxpos 0 [-1]).
  split; [discriminate|]. split; [apply (update_first_eq 0 maxpos [-1]); discriminate|].
  cbn. rewrite Rmax_left by lra. intros [H|[]]. lra.
Qed.
Print Assumptions computeStats_max_refuted.

(** Feeding the data in any sequence of chunks, each call telling how many values were
    already processed, gives exactly the statistics of the whole data; in particular the
    internal consistency assertion never fires. *)
Fixpoint feed (s : stat) (n : nat) (chunks : list (list R)) : option stat :=
  match chunks with
  | [] => Some s
  | c :: r => match updateAndFinalizeStats s c (Z.of_nat n) with
              | None => None
              | Some s' => feed s' (n + length c) r
              end
  end.

Theorem incremental_equals_batch : forall lo hi first rest,
  first <> [] ->
  exists s0, updateAndFinalizeStats (initializeStats lo hi) first 0 = Some s0 /\
  feed s0 (length first) rest =
  updateAndFinalizeStats (initializeStats lo hi) (first ++ concat rest) 0.
Proof.
  intros lo hi first rest Hf. exists (finished hi lo first).
  split; [apply update_first_eq; exact Hf|].
  assert (G : forall rest first, first <> [] ->
    feed (finished hi lo first) (length first) rest = Some (finished hi lo (first ++ concat rest))).
  { clear. induction rest as [|c r IH]; intros first Hf; cbn [feed concat].
    - rewrite app_nil_r. reflexivity.
    - rewrite update_next_eq by exact Hf. rewrite <- app_length, IH.
      + rewrite app_assoc. reflexivity.
      + destruct first; [congruence|discriminate]. }
  rewrite (G rest first Hf), update_first_eq; [reflexivity|].
  destruct first; [congruence|discriminate].
Qed.
Print Assumptions incremental_equals_batch.

(** REFUTED for a negative previous size (documented as "use Stat::num as divisor"): the
    new size is then [prev_size + |vals|], not the number of values. *)
Theorem negative_prev_size_refuted : forall lo hi, exists s0 s,
  updateAndFinalizeStats (initializeStats lo hi) [1] 0 = Some s0 /\
  updateAndFinalizeStats s0 [3] (-1) = Some s /\
  s_num s = 2%Z /\ s_total s = 4 /\ s_avg s = 4.
Proof.
  intros lo hi. exists (finished hi lo [1]).
  exists (finalizeStats (fold_left upd [3]
    (mkStat 1 1 ((std_dev [1] * std_dev [1] + mean [1] * mean [1]) * 1) (Rmin hi 1) (Rmax lo 1) 1 1)) 0).
  split; [apply (update_first_eq lo hi [1]); discriminate|].
  assert (Hm : mean [1] = 1) by (unfold mean, Rsum; cbn; field).
  assert (Hn : nnz [1] = 1%Z).
  { unfold nnz. cbn. unfold isZeroR. destruct (Rlt_dec (Rabs 1) (/ 10000000)) as [H|H]; [|reflexivity].
    rewrite Rabs_R1 in H. lra. }
  split.
  - unfold updateAndFinalizeStats. cbn [Z.eqb Z.gtb Z.compare].
    unfold unfinalizeStats. cbn [finished s_num s_total s_avg s_stddev s_min s_max s_nonzero].
    cbn [length Z.of_nat Pos.of_succ_nat Z.gtb Z.eqb Z.compare].
    rewrite Hm, Hn. replace (Rsum [1]) with 1 by (unfold Rsum; cbn; ring).
    destruct (Rlt_dec (Rabs (1 / 1 - 1)) (/ 1000)) as [_|n].
    + reflexivity.
    + exfalso. apply n. replace (1 / 1 - 1) with 0 by field. rewrite Rabs_R0. lra.
  - cbn [fold_left]. rewrite upd_eq. unfold finalizeStats.
    cbn [s_num s_total s_avg s_stddev s_min s_max s_nonzero Z.gtb Z.eqb Z.compare].
    repeat split; [lra|field_simplify; lra].
Qed.
Print Assumptions negative_prev_size_refuted.

Example stats_example : [1; 2; 3] <> [] /\ (forall x, In x [1; 2; 3] -> x <= 10) /\
  (forall x, In x [1;2;3] -> 0 <= x).
Proof. repeat split; [discriminate| |]; intros x [<-|[<-|[<-|[]]]]; lra. Qed.
