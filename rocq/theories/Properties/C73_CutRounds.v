(** C73: the file with one line per round of cuts. *)
From Coq Require Import String.
From Verif Require Import Prelude Model.LP Model.Tolerance Model.SolverHelper Model.MainRounds Model.Analysis Model.LogRow Model.MainProgram Model.CutRounds
  Spec.LPSpec Spec.SolverSpec Spec.ProgramSpec Spec.RoundSpec Proofs.ToleranceP Properties.C54_ApplyCuts Properties.C62_MainRounds.
From Verif Require Import Spec.GenSpec.
From Verif Require Model.TimeStats Proofs.TimerP Properties.C63_CutStatistics Properties.C70_Program Proofs.NamesP Spec.NameSpec Spec.TextSpec Properties.C36_FileNames Proofs.GenExamples Model.Names Proofs.TextP.
#[local] Open Scope Q_scope.
#[local] Open Scope list_scope.

(** ** Printing does not influence the rounds. *)
Theorem same_rounds : forall g ask env gens clk adds eps junk n fuel k s ts file r file',
  printed_rounds g ask env gens clk adds eps junk n fuel k s ts file = (Some r, file') -> main_rounds g ask env fuel k s = Some (fst r).
Proof.
  induction fuel as [|f IH]; intros k s ts file r file' H; cbn [printed_rounds main_rounds] in *; [injection H as <- _; reflexivity|].
  destruct (gomory_part g (ask k) (env k) s) as [s1|]; [|discriminate]. destruct (vpc_info _ _ _); [|discriminate].
  destruct (apply_part _ _ _ _ _) as [s2|]; [|discriminate]. destruct (round_times _ _ _ _ _ _) as [[ts' t]|]; [|discriminate].
  destruct (rev (s_rounds s2)) as [|ri l]; [discriminate|]. cbv zeta in H. destruct (stops g (env k) s2); [injection H as <- _; reflexivity|]. eapply IH, H.
Qed.
Print Assumptions same_rounds.

(** ** The timers. *)
(** The fifteen timers are registered; [v] gives each of them. *)
Definition view (s : TimeStats.tstats) (v : Z -> TimeStats.timer) : Prop :=
  length (TimeStats.ts_timers s) = 15%nat /\ forall j, (0 <= j)%Z -> TimeStats.timer_at s j = v j.
Definition put (v : Z -> TimeStats.timer) (i : Z) (t : TimeStats.timer) : Z -> TimeStats.timer := fun j => if (j =? i)%Z then t else v j.
Lemma view_set s v i f : view s v -> (0 <= i < 15)%Z -> view (TimeStats.set_timer s i f) (put v i (f (v i))).
Proof.
  intros [L V] I. split; [unfold TimeStats.set_timer; cbn [TimeStats.ts_timers]; rewrite TimerP.upd_length; exact L|].
  intros j J. specialize (V j J). unfold TimeStats.timer_at, TimeStats.set_timer in *. cbn [TimeStats.ts_timers]. rewrite TimerP.nth_upd by (rewrite L; lia). unfold put.
  destruct (Z.eqb_spec j i) as [Q|N], (Nat.eqb_spec (Z.to_nat j) (Z.to_nat i)) as [E|E]; try lia; [rewrite <- Q, V; reflexivity|exact V].
Qed.
Lemma view_valid s v i : view s v -> (0 <= i < 15)%Z -> TimeStats.valid_id s i = true.
Proof. intros [L _] I. apply TimerP.valid_id_iff. rewrite L. lia. Qed.
Definition started now (t : TimeStats.timer) : TimeStats.timer := {| TimeStats.t_start := now; TimeStats.t_value := TimeStats.t_value t; TimeStats.t_running := true |}.
Lemma start_ok s v now i : view s v -> (0 <= i < 15)%Z -> TimeStats.t_running (v i) = false ->
  exists s', TimeStats.start_timer s now (TimeStats.ById i) = Some s' /\ view s' (put v i (started now (v i))).
Proof.
  intros V I R. unfold TimeStats.start_timer, TimeStats.start_id. cbn [TimeStats.resolve]. rewrite (view_valid s v i V I), (proj2 V) by lia. rewrite R.
  eexists. split; [reflexivity|]. apply (view_set s v i (started now)); assumption.
Qed.
Lemma end_ok s v now i : view s v -> (0 <= i < 15)%Z -> TimeStats.t_running (v i) = true ->
  exists s', TimeStats.end_timer s now (TimeStats.ById i) = Some s' /\ view s' (put v i (TimeStats.stop now (v i))).
Proof.
  intros V I R. unfold TimeStats.end_timer, TimeStats.end_id. cbn [TimeStats.resolve]. rewrite (view_valid s v i V I), (proj2 V) by lia. rewrite R.
  eexists. split; [reflexivity|]. apply (view_set s v i (TimeStats.stop now)); assumption.
Qed.
Lemma total_ok s v now i : view s v -> (0 <= i < 15)%Z -> TimeStats.get_total_time s now (TimeStats.ById i) =
  TimeStats.seconds (if TimeStats.t_running (v i) then TimeStats.t_value (v i) + Z.of_nat now - Z.of_nat (TimeStats.t_start (v i)) else TimeStats.t_value (v i))%Z.
Proof.
  intros V I. unfold TimeStats.get_total_time. cbn [TimeStats.resolve]. rewrite (view_valid s v i V I), (proj2 V) by lia. destruct (TimeStats.t_running _); reflexivity.
Qed.
Lemma adds_ok : forall l s v, view s v -> (forall i w, In (i, w) l -> (6 <= i <= 11)%Z) ->
  exists v', view (fold_left (fun s '(i, w) => TimeStats.add_value s (TimeStats.ById i) w) l s) v' /\ forall j, (j < 6 \/ 11 < j)%Z -> v' j = v j.
Proof.
  induction l as [|[i w] l IH]; intros s v V H; cbn [fold_left]; [exists v; split; [exact V|reflexivity]|].
  assert (I : (6 <= i <= 11)%Z) by (apply (H i w); left; reflexivity).
  destruct (IH (TimeStats.add_value s (TimeStats.ById i) w) (put v i {| TimeStats.t_start := TimeStats.t_start (v i); TimeStats.t_value := TimeStats.t_value (v i) + w; TimeStats.t_running := TimeStats.t_running (v i) |})) as (v' & V' & E).
  - unfold TimeStats.add_value, TimeStats.add_value_id. cbn [TimeStats.resolve]. rewrite (view_valid s v i V ltac:(lia)).
    apply (view_set s v i (fun t => {| TimeStats.t_start := TimeStats.t_start t; TimeStats.t_value := TimeStats.t_value t + w; TimeStats.t_running := TimeStats.t_running t |})); [exact V|lia].
  - intros a b J. apply (H a b). right. exact J.
  - exists v'. split; [exact V'|]. intros j J. rewrite E by exact J. unfold put. destruct (Z.eqb_spec j i); [lia|reflexivity].
Qed.

Definition idle (s : TimeStats.tstats) : Prop := exists v, view s v /\ forall i, In i [1; 2; 3; 4; 5; 13]%Z -> TimeStats.t_running (v i) = false.
(** What timer [i] has accumulated. *)
Definition ticks_of (s : TimeStats.tstats) (i : Z) : Z := TimeStats.get_value s (TimeStats.ById i).
Lemma ticks_view s v i : view s v -> (0 <= i < 15)%Z -> ticks_of s i = TimeStats.t_value (v i).
Proof. intros V I. unfold ticks_of, TimeStats.get_value. cbn [TimeStats.resolve]. rewrite (view_valid s v i V I), (proj2 V) by lia. reflexivity. Qed.
Lemma seconds_sub a b : TimeStats.seconds a - TimeStats.seconds b == sec (a - b).
Proof.
  unfold TimeStats.seconds, sec. change (inject_Z TimeStats.CLOCKS_PER_SEC) with 1000000. unfold Z.sub. rewrite inject_Z_plus, inject_Z_opp. field. Qed.
Lemma sec_eq a b : a = b -> sec a == sec b. Proof. intros ->. reflexivity. Qed.
(** The times of a round, in clock readings. *)
Definition spans (c : nat -> nat) (g : Z) (should some : bool) : Z * Z * Z * Z :=
  let d a b := (Z.of_nat (c b) - Z.of_nat (c a))%Z in
  let gm := ((g =? -1)%Z || (g =? 1)%Z)%bool in
  (if gm then d 2%nat 3%nat else 0, if gm then d 6%nat 7%nat else 0, if should then d 10%nat 11%nat else 0, if some then d 16%nat 17%nat else 0)%Z.
(** No assert of the timers fails; the times of the round are those between the calls; the timers are off again. *)
Lemma round_times_ok c g should some adds s : idle s -> exists s' t, round_times c g should some adds s = Some (s', t) /\ idle s' /\
  let '(gg, ga, vg, va) := spans c g should some in
  rt_ggen t == sec gg /\ rt_gapp t == sec ga /\ rt_vgen t == sec vg /\ rt_vapp t == sec va /\
  ticks_of s' 1 = (ticks_of s 1 + gg)%Z /\ ticks_of s' 4 = (ticks_of s 4 + vg)%Z /\ ticks_of s' 5 = (ticks_of s 5 + va)%Z.
Proof.
  intros (v & V & OFF). unfold round_times.
  assert (Z0 : 0 == sec 0) by reflexivity.
  destruct (start_ok s v (c 0%nat) 3 V ltac:(lia) (OFF 3%Z ltac:(cbn; tauto))) as (s1 & E1 & V1). unfold CUT_TOTAL_TIME. rewrite E1. cbn [andthen]. clear E1.
  set (v1 := put v 3 (started (c 0%nat) (v 3%Z))) in *.
  assert (G : exists s2 gg ga v2, gomory_times c g s1 = Some (s2, gg, ga) /\ view s2 v2 /\ gg == sec (fst (fst (fst (spans c g should some)))) /\ ga == sec (snd (fst (fst (spans c g should some)))) /\
    (forall j, (2 < j)%Z -> v2 j = v1 j) /\ TimeStats.t_running (v2 1%Z) = false /\ TimeStats.t_running (v2 2%Z) = false /\
    TimeStats.t_value (v2 1%Z) = (TimeStats.t_value (v 1%Z) + fst (fst (fst (spans c g should some))))%Z).
  { unfold gomory_times, spans. destruct (_ || _); cbn [fst snd].
    2:{ exists s1, 0, 0, v1. split; [reflexivity|]. split; [exact V1|]. split; [exact Z0|]. split; [exact Z0|]. split; [reflexivity|]. unfold v1, put. cbn [Z.eqb Pos.eqb].
        split; [apply OFF; cbn; tauto|]. split; [apply OFF; cbn; tauto|lia]. }
    unfold GOMORY_GEN_TIME, GOMORY_APPLY_TIME. rewrite (total_ok s1 v1 _ 1 V1 ltac:(lia)).
    assert (R1 : TimeStats.t_running (v1 1%Z) = false) by (unfold v1, put; cbn [Z.eqb Pos.eqb]; apply OFF; cbn; tauto). rewrite R1.
    destruct (start_ok s1 v1 (c 2%nat) 1 V1 ltac:(lia) R1) as (s2 & -> & V2). cbn [andthen].
    destruct (end_ok s2 _ (c 3%nat) 1 V2 ltac:(lia) eq_refl) as (s3 & -> & V3). cbn [andthen]. rewrite (total_ok s3 _ _ 1 V3 ltac:(lia)).
    destruct (start_ok s3 _ (c 5%nat) 2 V3 ltac:(lia) (OFF 2%Z ltac:(cbn; tauto))) as (s4 & -> & V4). cbn [andthen].
    rewrite !(total_ok s4 _ _ 2 V4 ltac:(lia)). destruct (end_ok s4 _ (c 8%nat) 2 V4 ltac:(lia) eq_refl) as (s5 & -> & V5). cbn [andthen].
    eexists _, _, _, _. split; [reflexivity|]. split; [exact V5|]. split; [|split; [|split; [|split; [|split]]]].
    - rewrite seconds_sub. apply sec_eq. unfold put, v1. cbn. lia.
    - rewrite seconds_sub. apply sec_eq. unfold put, v1. cbn. lia.
    - intros j J. unfold put. destruct (Z.eqb_spec j 2); [lia|]. destruct (Z.eqb_spec j 1); [lia|]. reflexivity.
    - reflexivity.
    - reflexivity.
    - unfold put, v1. cbn. lia. }
  destruct G as (s2 & gg & ga & v2 & -> & V2 & GG & GA & F2 & R21 & R22 & T21). cbn [andthen].
  assert (H : exists s3 vg v3, vpc_times c should adds s2 = Some (s3, vg) /\ view s3 v3 /\ vg == sec (snd (fst (spans c g should some))) /\
    (forall j, (j < 4)%Z \/ j = 5%Z \/ (11 < j)%Z -> v3 j = v2 j) /\ TimeStats.t_running (v3 4%Z) = false /\
    TimeStats.t_value (v3 4%Z) = (TimeStats.t_value (v 4%Z) + snd (fst (spans c g should some)))%Z).
  { assert (R4 : v2 4%Z = v 4%Z) by (rewrite F2 by lia; reflexivity).
    unfold vpc_times, spans. destruct should; cbn [fst snd].
    2:{ exists s2, 0, v2. split; [reflexivity|]. split; [exact V2|]. split; [exact Z0|]. split; [reflexivity|]. rewrite R4. split; [apply OFF; cbn; tauto|lia]. }
    assert (O4 : TimeStats.t_running (v2 4%Z) = false) by (rewrite R4; apply OFF; cbn; tauto).
    unfold VPC_GEN_TIME. rewrite (total_ok s2 v2 _ 4 V2 ltac:(lia)), O4.
    destruct (start_ok s2 v2 (c 10%nat) 4 V2 ltac:(lia) O4) as (s3 & -> & V3). cbn [andthen].
    destruct (adds_ok (combine [6; 7; 8; 9; 10; 11]%Z adds) s3 _ V3) as (v4 & V4 & F4).
    { intros i w I. apply in_combine_l in I. cbn in I. lia. }
    destruct (end_ok _ v4 (c 11%nat) 4 V4 ltac:(lia)) as (s5 & -> & V5); [rewrite F4 by lia; reflexivity|]. cbn [andthen]. rewrite (total_ok s5 _ _ 4 V5 ltac:(lia)).
    eexists _, _, _. split; [reflexivity|]. split; [exact V5|]. split; [|split; [|split]].
    - rewrite seconds_sub. apply sec_eq. unfold put at 1 2. cbn [Z.eqb Pos.eqb]. rewrite F4 by lia. unfold put. cbn. lia.
    - intros j J. unfold put at 1. destruct (Z.eqb_spec j 4); [lia|]. rewrite F4 by lia. unfold put. destruct (Z.eqb_spec j 4); [lia|]. reflexivity.
    - reflexivity.
    - unfold put at 1. cbn [Z.eqb Pos.eqb]. rewrite F4 by lia. unfold put. cbn. rewrite R4. lia. }
  destruct H as (s3 & vg & v3 & -> & V3 & VG & F3 & R34 & T34). cbn [andthen].
  destruct (end_ok s3 v3 (c 13%nat) 3 V3 ltac:(lia)) as (s4 & -> & V4); [rewrite F3, F2 by lia; reflexivity|]. cbn [andthen].
  unfold TOTAL_APPLY_TIME. destruct (start_ok s4 _ (c 14%nat) 13 V4 ltac:(lia)) as (s5 & -> & V5).
  { unfold put. cbn [Z.eqb Pos.eqb]. rewrite F3, F2 by lia. unfold v1, put. cbn [Z.eqb Pos.eqb]. apply OFF. cbn; tauto. }
  cbn [andthen]. set (v5 := put (put v3 3 (TimeStats.stop (c 13%nat) (v3 3%Z))) 13 _) in *.
  assert (A : exists s6 va v6, apply_times c some s5 = Some (s6, va) /\ view s6 v6 /\ va == sec (snd (spans c g should some)) /\
    (forall j, j <> 5%Z -> v6 j = v5 j) /\ TimeStats.t_running (v6 5%Z) = false /\
    TimeStats.t_value (v6 5%Z) = (TimeStats.t_value (v 5%Z) + snd (spans c g should some))%Z).
  { assert (R5 : v5 5%Z = v 5%Z) by (unfold v5, put; cbn [Z.eqb Pos.eqb]; rewrite F3, F2 by lia; reflexivity).
    unfold apply_times, spans. destruct some; cbn [fst snd].
    2:{ exists s5, 0, v5. split; [reflexivity|]. split; [exact V5|]. split; [exact Z0|]. split; [reflexivity|]. rewrite R5. split; [apply OFF; cbn; tauto|lia]. }
    assert (O5 : TimeStats.t_running (v5 5%Z) = false) by (rewrite R5; apply OFF; cbn; tauto).
    unfold VPC_APPLY_TIME. rewrite (total_ok s5 v5 _ 5 V5 ltac:(lia)), O5.
    destruct (start_ok s5 v5 (c 16%nat) 5 V5 ltac:(lia) O5) as (s6 & -> & V6). cbn [andthen].
    destruct (end_ok _ _ (c 17%nat) 5 V6 ltac:(lia) eq_refl) as (s7 & -> & V7). cbn [andthen]. rewrite (total_ok s7 _ _ 5 V7 ltac:(lia)).
    eexists _, _, _. split; [reflexivity|]. split; [exact V7|]. split; [|split; [|split]].
    - rewrite seconds_sub. apply sec_eq. unfold put. cbn. lia.
    - intros j J. unfold put. destruct (Z.eqb_spec j 5); [lia|]. reflexivity.
    - reflexivity.
    - unfold put. cbn [Z.eqb Pos.eqb started TimeStats.stop TimeStats.t_value TimeStats.t_start TimeStats.t_running]. rewrite R5. lia. }
  destruct A as (s6 & va & v6 & -> & V6 & VA & F6 & R65 & T65). cbn [andthen].
  destruct (end_ok s6 v6 (c 19%nat) 13 V6 ltac:(lia)) as (s7 & -> & V7); [rewrite F6 by lia; reflexivity|]. cbn [andthen].
  eexists _, _. split; [reflexivity|]. set (v7 := put v6 13 _) in V7. split.
  - exists v7. split; [exact V7|]. intros i I. cbn [In] in I. destruct I as [<-|[<-|[<-|[<-|[<-|[<-|[]]]]]]]; unfold v7, put; cbn [Z.eqb Pos.eqb]; rewrite ?F6 by lia; try exact R65; try reflexivity;
      unfold v5, put; cbn [Z.eqb Pos.eqb]; rewrite ?F3 by lia; try assumption; reflexivity.
  - destruct (spans c g should some) as [[[gg' ga'] vg'] va'] eqn:SP. cbn [fst snd] in *. cbn [rt_ggen rt_gapp rt_vgen rt_vapp]. split; [exact GG|]. split; [exact GA|]. split; [exact VG|]. split; [exact VA|].
    rewrite !(ticks_view s7 v7), !(ticks_view s v) by (assumption || lia).
    unfold v7, put; cbn [Z.eqb Pos.eqb]. rewrite T65. rewrite !F6 by lia. unfold v5, put; cbn [Z.eqb Pos.eqb]. rewrite (F3 1%Z) by lia. rewrite T34, T21. split; [reflexivity|]. split; reflexivity.
Qed.

(** ** The lines. *)
Definition gmics_of (g : Z) (env : nat -> roundenv) (k : nat) : list cut := if (g =? -1)%Z || (g =? 1)%Z then re_gmics (env k) else [].
Definition upto (f : nat -> list cut) (k : nat) : list cut := concat (map f (seq 0 k)).
Lemma upto_S f k : upto f (S k) = upto f k ++ f k.
Proof. unfold upto. rewrite seq_S, map_app, concat_app. cbn [map concat Nat.add]. rewrite app_nil_r. reflexivity. Qed.
(** Round [k] (from 0) of a run. *)
Definition nth_round (g : Z) (env : nat -> roundenv) (clk : nat -> nat -> nat) (k : nat) : theround :=
  {| r_no := S k; r_gomory := negb (g =? 0)%Z; r_gm_upto := upto (gmics_of g env) (S k); r_vp_upto := upto (fun k => round_vpcs (env k)) (S k);
     r_gm := gmics_of g env k; r_vp := round_vpcs (env k); r_ticks := spans (clk k) g (re_should (env k)) (negb (is_nil (round_vpcs (env k)))) |}.
(** The generator's number of cuts is that of its pool, and no cut has more elements than there are columns. *)
Definition consistent (env : nat -> roundenv) (gens : nat -> gstate) : Prop :=
  forall k, re_should (env k) = true -> g_num_cuts (gens k) = length (re_vpcs (env k)).
Definition cuts_fit (P : lp) (env : nat -> roundenv) : Prop := forall k c, In c (re_gmics (env k)) \/ In c (re_vpcs (env k)) -> (length (crow c) <= ncols P)%nat.
Definition unkept : list string := ["min_density_gmic"; "max_density_gmic"; "min_density_vpc"; "max_density_vpc"]%string.
(** What stands in the columns for minimum and maximum density: 0 for no cuts, else the same two numbers whatever the cuts are. *)
Inductive stale (P : lp) (r : theround) : string -> field -> Prop :=
| st_none_gm name x : In name ["min_density_gmic"; "max_density_gmic"]%string -> r_gm r = [] -> x == 0 -> stale P r name (NumF x)
| st_none_vp name x : In name ["min_density_vpc"; "max_density_vpc"]%string -> r_vp r = [] -> x == 0 -> stale P r name (NumF x)
| st_min_gm x : r_gm r <> [] -> x * inject_Z (Z.of_nat (ncols P)) == 100 * 2147483647 -> stale P r "min_density_gmic" (NumF x)
| st_min_vp x : r_vp r <> [] -> x * inject_Z (Z.of_nat (ncols P)) == 100 * 2147483647 -> stale P r "min_density_vpc" (NumF x)
| st_max_gm x : r_gm r <> [] -> x == 0 -> stale P r "max_density_gmic" (NumF x)
| st_max_vp x : r_vp r <> [] -> x == 0 -> stale P r "max_density_vpc" (NumF x).
(** [row] is the line of round [k]: its number first, then under each name what the name says (but for minimum and maximum density). *)
Definition row_says (g : Z) env clk (P : lp) (eps : Q) (inst : string) (k : nat) (row : list field) : Prop :=
  length row = length (round_names inst) /\ nth_error row 0 = Some (IntF (Z.of_nat k + 1)) /\
  forall j name f, (0 < j)%nat -> nth_error (round_names inst) j = Some name -> nth_error row j = Some f -> 
    if existsb (String.eqb name) unkept then stale P (nth_round g env clk k) name f else shows P eps (nth_round g env clk k) name f.

Lemma opt_with P l R v : with_cuts P l R -> lp_opt R v -> optimum_with P l v.
Proof.
  intros (W1 & W2 & _ & W4) [(x & F & E) M]. unfold optimum_with, objective. unfold lp_value in *. split.
  - exists x. split; [apply W4, F|]. rewrite W1, W2 in E. exact E.
  - intros y Y. apply W4 in Y. specialize (M y Y). rewrite W1, W2 in M. exact M.
Qed.
Lemma sum_supports eps cs : inject_Z (Zsum (map (fun c => Z.of_nat (length (C63_CutStatistics.support eps c))) cs)) == Qsumf (fun c => inject_Z (Z.of_nat (nonzeros eps c))) cs.
Proof.
  induction cs as [|c cs IH]; [reflexivity|]. rewrite Qsumf_cons. cbn [map Zsum]. rewrite inject_Z_plus, IH. reflexivity.
Qed.
Lemma filter_len {A} (p : A -> bool) l : (length (filter p l) <= length l)%nat.
Proof. induction l as [|a l IH]; cbn [filter length]; [lia|]. destruct (p a); cbn [length]; lia. Qed.
Lemma support_bound eps n cs : (forall c, In c cs -> (length (crow c) <= n)%nat) ->
  (0 <= Zsum (map (fun c => Z.of_nat (length (C63_CutStatistics.support eps c))) cs) <= Z.of_nat n * Z.of_nat (length cs))%Z.
Proof.
  induction cs as [|c cs IH]; intro H; cbn [map Zsum length]; [lia|].
  assert ((0 <= Zsum (map (fun c => Z.of_nat (length (C63_CutStatistics.support eps c))) cs) <= Z.of_nat n * Z.of_nat (length cs))%Z) by (apply IH; intros d D; apply H; right; exact D).
  pose proof (filter_len (fun e : nat * Q => Qle_bool eps (Qabs (snd e))) (crow c)) as F. specialize (H c (or_introl eq_refl)). unfold C63_CutStatistics.support in *.
  rewrite Nat2Z.inj_succ. nia.
Qed.
(** The density cell of a list of cuts. *)
Lemma density_ok eps n cs : (0 < n)%nat -> (forall c, In c cs -> (length (crow c) <= n)%nat) ->
  exists a, density (length cs) (new_average (Some 0) 0 (total_support eps cs) (Z.of_nat (length cs))) n = NumF a /\ average_percent eps n cs a.
Proof.
  intros NP FIT. unfold density. destruct cs as [|c r]; [exists 0; split; [reflexivity|cbn; reflexivity]|]. set (cs := c :: r) in *.
  destruct (Nat.ltb_spec 0 (length cs)) as [L|L]; [|unfold cs in L; cbn in L; lia]. cbv iota.
  pose proof (support_bound eps n cs FIT) as SB. rewrite C63_CutStatistics.total_support_sum. set (t := Zsum _) in *.
  unfold new_average. destruct (Z.eqb_spec (Z.of_nat (length cs)) 0); [lia|]. unfold ddiv.
  set (k := inject_Z (Z.of_nat (length cs))) in *. set (m := inject_Z (Z.of_nat n)).
  assert (K1 : 1 <= k) by (unfold k; change 1 with (inject_Z 1); rewrite <- Zle_Qle; lia).
  assert (M1 : 1 <= m) by (unfold m; change 1 with (inject_Z 1); rewrite <- Zle_Qle; lia).
  assert (T1 : 0 <= inject_Z t) by (change 0 with (inject_Z 0); rewrite <- Zle_Qle; lia).
  assert (T2 : inject_Z t <= m * k) by (unfold m, k; rewrite <- inject_Z_mult, <- Zle_Qle; lia).
  destruct (Qeq_bool m 0) eqn:E; [apply Qeq_bool_eq in E; lra|]. set (x := 100 * ((0 * inject_Z 0 + inject_Z t) / k) / m).
  assert (X : x * m * k == 100 * inject_Z t) by (unfold x; change (inject_Z 0) with 0; field; split; lra).
  assert (MK : 0 < m * k) by nra.
  assert (X0 : 0 <= x) by nra.
  assert (X1 : x <= 100) by nra.
  assert (B : 1000 <= inject_Z (10 ^ 100)) by (vm_compute; discriminate).
  exists x. split.
  - unfold str100. destruct (isInfinity x _ _) eqn:I1; [apply isInfinity_iff_l in I1; [|reflexivity]; unfold EPS7 in I1; lra|].
    destruct (isNegInfinity x _ _) eqn:I2; [apply isNegInfinity_iff_l in I2; [|reflexivity]; unfold EPS7 in I2; lra|]. reflexivity.
  - unfold average_percent. unfold cs at 1. fold k m. rewrite X. unfold t. rewrite sum_supports. reflexivity.
Qed.
Lemma str0 : str100 (LogRow.DFin 0) = NumF 0. Proof. reflexivity. Qed.

Lemma unset_min m n : (0 < m)%nat -> (0 < n)%nat -> exists x, density m (Some (inject_Z NO_SUPPORT)) n = NumF x /\ x * inject_Z (Z.of_nat n) == 100 * 2147483647.
Proof.
  intros M N. unfold density. destruct (Nat.ltb_spec 0 m); [|lia]. unfold ddiv. set (k := inject_Z (Z.of_nat n)).
  assert (K1 : 1 <= k) by (unfold k; change 1 with (inject_Z 1); rewrite <- Zle_Qle; lia).
  destruct (Qeq_bool k 0) eqn:E; [apply Qeq_bool_eq in E; lra|]. set (x := 100 * inject_Z NO_SUPPORT / k).
  assert (X : x * k == 100 * 2147483647) by (unfold x; change (inject_Z NO_SUPPORT) with 2147483647; field; lra).
  assert (X0 : 0 <= x) by nra. assert (X1 : x <= 100 * 2147483647) by nra.
  assert (B : 1000 * 2147483647 <= inject_Z (10 ^ 100)) by (vm_compute; discriminate).
  exists x. split; [|exact X]. unfold str100. destruct (isInfinity x _ _) eqn:I1; [apply isInfinity_iff_l in I1; [|reflexivity]; unfold EPS7 in I1; lra|].
  destruct (isNegInfinity x _ _) eqn:I2; [apply isNegInfinity_iff_l in I2; [|reflexivity]; unfold EPS7 in I2; lra|]. reflexivity.
Qed.
Lemma unset_max m n : (0 < n)%nat -> exists x, density m (Some (inject_Z 0)) n = NumF x /\ x == 0.
Proof.
  intros N. unfold density. destruct (Nat.ltb_spec 0 m); [|exists 0; split; [exact str0|reflexivity]]. unfold ddiv. set (k := inject_Z (Z.of_nat n)).
  assert (K1 : 1 <= k) by (unfold k; change 1 with (inject_Z 1); rewrite <- Zle_Qle; lia).
  destruct (Qeq_bool k 0) eqn:E; [apply Qeq_bool_eq in E; lra|]. set (x := 100 * inject_Z 0 / k).
  assert (X : x == 0) by (unfold x; change (inject_Z 0) with 0; field; lra).
  assert (B : 1000 <= inject_Z (10 ^ 100)) by (vm_compute; discriminate).
  exists x. split; [|exact X]. unfold str100. destruct (isInfinity x _ _) eqn:I1; [apply isInfinity_iff_l in I1; [|reflexivity]; unfold EPS7 in I1; lra|].
  destruct (isNegInfinity x _ _) eqn:I2; [apply isNegInfinity_iff_l in I2; [|reflexivity]; unfold EPS7 in I2; lra|]. reflexivity.
Qed.
Lemma unset_none a n : density 0 a n = NumF 0. Proof. exact str0. Qed.

(** What a round adds to the record of rounds. *)
Lemma round_recorded (K : list cut -> Prop) g ask e P o0 s s1 s2 : (-1 <= g <= 1)%Z -> K (re_gmics e) -> K (round_vpcs e) -> (forall i, decisive K P (ask i)) -> contents K g P (s_gmics s) (s_vpcs s) s ->
  gomory_part g ask e s = Some s1 -> apply_part g ask e o0 (vpc_part e s1) = Some s2 ->
  exists r, s_rounds s2 = s_rounds s ++ [r] /\ ri_vpc r = m_obj (vpcS g s2) /\ ri_all r = m_obj (allS g s2) /\ (g <> 0%Z -> ri_gmic r = m_obj (s_gm s2)) /\
    ri_ngmic r = (if (g =? 0)%Z then 0 else length (re_gmics e))%nat /\ ri_nvpc r = (if re_should e && negb (is_nil (re_disjs e)) then re_num e else 0)%nat.
Proof.
  intros GB KG KV D C E1 E2.
  assert (FR : s_rounds s1 = s_rounds s /\ (g <> 0%Z -> s_bgmic s1 = m_obj (s_gm s1))).
  { unfold gomory_part in E1. destruct ((g =? -1)%Z || (g =? 1)%Z) eqn:GG.
    - destruct (m_apply (ask 0%nat) _ _) as [gm|]; [|discriminate]. destruct (if (0 <? g)%Z then _ else _) as [so|]; [|discriminate].
      destruct (m_apply (ask 2%nat) _ _) as [al|]; [|discriminate]. injection E1 as <-. cbn [s_rounds s_bgmic s_gm]. split; reflexivity.
    - injection E1 as <-. split; [reflexivity|]. intro NZ. apply Bool.orb_false_iff in GG. destruct GG as [G1 G2]. apply Z.eqb_neq in G1, G2. lia. }
  destruct FR as (F1 & F3). destruct (vpc_frame e s1) as (_ & FG & _ & _ & _ & _ & F7 & F8 & _).
  unfold apply_part in E2. destruct (if is_nil _ then _ else _) as [[[vp so] al]|]; [|discriminate]. cbv zeta in E2. injection E2 as <-.
  eexists. cbn [s_rounds]. rewrite F7, F1. split; [reflexivity|]. cbn [ri_vpc ri_all ri_gmic ri_ngmic ri_nvpc s_gm]. unfold vpcS, allS. cbn [s_solver s_vp s_all].
  destruct (Z.eqb_spec g 0) as [G0|NZ]; cbn [negb]; (split; [reflexivity|]); (split; [reflexivity|]).
  - split; [intro X; elim X; exact G0|]. split; reflexivity.
  - rewrite F8, FG. split; [intros _; apply F3, NZ|]. split; reflexivity.
Qed.
Lemma gmics_zero g e : (-1 <= g <= 1)%Z -> (if (g =? 0)%Z then 0 else length (re_gmics e))%nat = length (if (g =? -1)%Z || (g =? 1)%Z then re_gmics e else []).
Proof. intro B. destruct (Z.eqb_spec g 0), (Z.eqb_spec g (-1)), (Z.eqb_spec g 1); try lia; reflexivity. Qed.

Section Lines.
Context (g : Z) (ask : nat -> nat -> solver_oracle) (env : nat -> roundenv) (gens : nat -> gstate) (clk : nat -> nat -> nat) (eps junk : Q) (P : lp) (inst : string).
Hypothesis GB : (-1 <= g <= 1)%Z.
Hypothesis D : forall k i, decisive (lists env) P (ask k i).
Hypothesis CT : counted env.
Hypothesis CO : consistent env gens.
Hypothesis FIT : cuts_fit P env.
Hypothesis NC : (0 < ncols P)%nat.
Notation vp k := (round_vpcs (env k)) (only parsing).
Lemma vpc_info_ok k : exists cv, vpc_info eps (env k) (gens k) = Some cv /\ ci_min cv = NO_SUPPORT /\ ci_max cv = 0%Z /\
  exists a, density (length (vp k)) (ci_avg cv) (ncols P) = NumF a /\ average_percent eps (ncols P) (vp k) a.
Proof using CO FIT NC.
  unfold vpc_info, round_vpcs. destruct (re_should (env k)) eqn:SH.
  - unfold updateCutInfo. rewrite (CO k SH), Nat.ltb_irrefl. cbn [andb]. eexists. split; [reflexivity|]. split; [reflexivity|]. split; [reflexivity|]. cbn [ci_avg]. rewrite Nat.sub_diag. cbn [skipn ci_new ci_num ci_avg].
    apply density_ok; [exact NC|]. intros c I. apply (FIT k c). right. exact I.
  - eexists. split; [reflexivity|]. split; [reflexivity|]. split; [reflexivity|]. exists 0. split; [exact str0|]. cbn. reflexivity.
Qed.
Lemma gmic_info_ok k : ci_min (gmic_info g eps (env k)) = NO_SUPPORT /\ ci_max (gmic_info g eps (env k)) = 0%Z /\ exists a, density (length (gmics_of g env k)) (ci_avg (gmic_info g eps (env k))) (ncols P) = NumF a /\ average_percent eps (ncols P) (gmics_of g env k) a.
Proof using FIT NC.
  unfold gmics_of, gmic_info. destruct ((g =? -1)%Z || (g =? 1)%Z).
  - unfold updateGMICInfo. cbn [ci_avg ci_num ci_new ci_min ci_max]. split; [reflexivity|]. split; [reflexivity|]. apply density_ok; [exact NC|]. intros c I. apply (FIT k c). left. exact I.
  - split; [reflexivity|]. split; [reflexivity|]. exists 0. split; [exact str0|]. cbn. reflexivity.
Qed.
Definition met (k : nat) (s : mainst) : Prop :=
  s_gmics s = upto (gmics_of g env) k /\ s_vpcs s = upto (fun k => vp k) k /\ contents (lists env) g P (s_gmics s) (s_vpcs s) s /\ length (s_rounds s) = k.
Lemma round_line k s s1 s2 cv : met k s -> gomory_part g (ask k) (env k) s = Some s1 -> vpc_info eps (env k) (gens k) = Some cv ->
  apply_part g (ask k) (env k) (m_obj (s_solver s)) (vpc_part (env k) s1) = Some s2 -> met (S k) s2 /\
  exists r, s_rounds s2 = s_rounds s ++ [r] /\ forall t,
    (let '(gg, ga, vg, va) := spans (clk k) g (re_should (env k)) (negb (is_nil (vp k))) in rt_ggen t == sec gg /\ rt_gapp t == sec ga /\ rt_vgen t == sec vg /\ rt_vapp t == sec va) ->
    row_says g env clk P eps inst k (round_row g junk (ncols P) k r (gmic_info g eps (env k)) cv t).
Proof using GB D CT CO FIT NC.
  intros (M1 & M2 & C & M3) E1 EV E2.
  pose proof (contents_step (lists env) g (ask k) (env k) P _ s s1 s2 GB (lists_g env k) (lists_v env k) (D k) C E1 E2) as C2.
  destruct (rounds_frame _ _ _ _ _ _ _ E1 E2) as (_ & _ & _ & R6 & R7 & _).
  destruct (round_recorded (lists env) g (ask k) (env k) P _ s s1 s2 GB (lists_g env k) (lists_v env k) (D k) C E1 E2) as (r & RD & RV & RA & RG & RN & RM).
  assert (G2 : s_gmics s2 = upto (gmics_of g env) (S k)) by (rewrite R6, M1, upto_S; reflexivity).
  assert (V2 : s_vpcs s2 = upto (fun k => vp k) (S k)) by (rewrite R7, M2, upto_S; reflexivity).
  split. { split; [exact G2|]. split; [exact V2|]. split; [exact C2|]. rewrite RD, app_length, M3. cbn [length]. lia. }
  exists r. split; [exact RD|]. intros t T.
  rewrite (gmics_zero g (env k) GB) in RN. change (if (g =? -1)%Z || (g =? 1)%Z then re_gmics (env k) else []) with (gmics_of g env k) in RN.
  assert (RM' : ri_nvpc r = length (vp k)).
  { rewrite RM. unfold round_vpcs. destruct (CT k) as [N1 N2]. destruct (re_should (env k)); [|reflexivity]. cbn [andb]. destruct (re_disjs (env k)) as [|d l]; cbn [is_nil negb]; [rewrite N2; reflexivity|exact N1]. }
  destruct (contents_reported _ g P _ _ s2 C2) as (P1 & P2 & P3 & P4).
  destruct (solved_obj _ P2) as (w1 & W1 & O1). destruct (solved_obj _ P4) as (w2 & W2 & O2).
  rewrite G2, V2 in P3. rewrite V2 in P1.
  pose proof (opt_with _ _ _ _ P1 O1) as Q1. pose proof (opt_with _ _ _ _ P3 O2) as Q2.
  destruct (vpc_info_ok k) as (cv' & EV' & VMI & VMA & av & DV & AV). rewrite EV in EV'. injection EV' as <-.
  destruct (gmic_info_ok k) as (GMI & GMA & ag & DG & AG).
  destruct (spans (clk k) g (re_should (env k)) (negb (is_nil (vp k)))) as [[[gg ga] vg] va] eqn:SP. destruct T as (T1 & T2 & T3 & T4).
  assert (RT : r_ticks (nth_round g env clk k) = (gg, ga, vg, va)) by exact SP.
  split; [reflexivity|]. split; [reflexivity|]. unfold round_row. rewrite RV, RA, W1, W2, RN, RM', DV, DG, VMI, VMA, GMI, GMA. unfold bound_cell.
  intros j name f J EN EF.
  destruct j as [|[|[|[|[|[|[|[|[|[|[|[|[|[|[|[|j]]]]]]]]]]]]]]]]; [lia| | | | | | | | | | | | | | | |destruct j; discriminate EN];
    cbn [nth_error round_names] in EN, EF; injection EN as <-; injection EF as <-.
  all: match goal with |- context [existsb ?p unkept] => let b := eval vm_compute in (existsb p unkept) in change (existsb p unkept) with b; cbv iota end.
  - destruct (Z.eqb_spec g 0) as [G0|NZ]; [change (strQ DBL_MAX) with InfF; apply sh_nogmic; cbn [nth_round r_gomory]; rewrite G0; reflexivity|].
    destruct C2 as (_ & _ & C3 & _). destruct (C3 NZ) as (A1 & (_ & A2) & _). destruct (solved_obj _ A2) as (w & W & O). rewrite (RG NZ), W.
    apply sh_gmic; [cbn [nth_round r_gomory]; apply Z.eqb_neq in NZ; rewrite NZ; reflexivity|]. rewrite G2 in A1. exact (opt_with _ _ _ _ A1 O).
  - apply sh_vpc. exact Q1.
  - apply sh_all. exact Q2.
  - exact (sh_ngmic P eps (nth_round g env clk k)).
  - destruct (gmics_of g env k) as [|c0 l0] eqn:EL; [cbn [length]; rewrite unset_none; apply st_none_gm; [cbn; tauto|exact EL|reflexivity]|].
    destruct (unset_min (length (c0 :: l0)) (ncols P) ltac:(cbn [length]; lia) NC) as (x & -> & X). apply st_min_gm; [intro K0; change (r_gm (nth_round g env clk k)) with (gmics_of g env k) in K0; rewrite EL in K0; discriminate|exact X].
  - destruct (gmics_of g env k) as [|c0 l0] eqn:EL; [cbn [length]; rewrite unset_none; apply st_none_gm; [cbn; tauto|exact EL|reflexivity]|].
    destruct (unset_max (length (c0 :: l0)) (ncols P) NC) as (x & -> & X). apply st_max_gm; [intro K0; change (r_gm (nth_round g env clk k)) with (gmics_of g env k) in K0; rewrite EL in K0; discriminate|exact X].
  - apply sh_dgmic. exact AG.
  - apply sh_ggen. rewrite RT. exact T1.
  - apply sh_gapp. rewrite RT. exact T2.
  - exact (sh_nvpc P eps (nth_round g env clk k)).
  - destruct (round_vpcs (env k)) as [|c0 l0] eqn:EL; [cbn [length]; rewrite unset_none; apply st_none_vp; [cbn; tauto|exact EL|reflexivity]|].
    destruct (unset_min (length (c0 :: l0)) (ncols P) ltac:(cbn [length]; lia) NC) as (x & -> & X). apply st_min_vp; [intro K0; change (r_vp (nth_round g env clk k)) with (round_vpcs (env k)) in K0; rewrite EL in K0; discriminate|exact X].
  - destruct (round_vpcs (env k)) as [|c0 l0] eqn:EL; [cbn [length]; rewrite unset_none; apply st_none_vp; [cbn; tauto|exact EL|reflexivity]|].
    destruct (unset_max (length (c0 :: l0)) (ncols P) NC) as (x & -> & X). apply st_max_vp; [intro K0; change (r_vp (nth_round g env clk k)) with (round_vpcs (env k)) in K0; rewrite EL in K0; discriminate|exact X].
  - apply sh_dvpc. exact AV.
  - apply sh_vgen. rewrite RT. exact T3.
  - apply sh_vapp. rewrite RT. exact T4.
Qed.

(** The ticks that timers 1 (GOMORY_GEN), 4 (VPC_GEN) and 5 (VPC_APPLY) gain in round [k]. *)
Definition gained (k : nat) (i : Z) : Z :=
  let '(gg, _, vg, va) := r_ticks (nth_round g env clk k) in if (i =? 1)%Z then gg else if (i =? 4)%Z then vg else va.
Lemma all_lines (adds : nat -> list Z) : forall fuel k s ts file, met k s -> idle ts -> exists o rows s1,
  printed_rounds g ask env gens clk adds eps junk (ncols P) fuel k s ts file = (o, file ++ concat (map CutRounds.line rows)) /\
  option_map fst o = main_rounds g ask env fuel k s /\
  (forall i row, nth_error rows i = Some row -> row_says g env clk P eps inst (k + i) row) /\
  main_rounds g ask env (length rows) k s = Some s1 /\ length (s_rounds s1) = (k + length rows)%nat /\
  match o with
  | None => main_rounds g ask env (S (length rows)) k s = None
  | Some (s', ts') => s' = s1 /\ idle ts' /\ forall i, In i [1; 4; 5]%Z -> ticks_of ts' i = (ticks_of ts i + Zsum (map (fun k => gained k i) (seq k (length rows))))%Z
  end.
Proof using GB D CT CO FIT NC.
  induction fuel as [|f IH]; intros k s ts file M ID; cbn [printed_rounds].
  { exists (Some (s, ts)), [], s. cbn [map concat length main_rounds seq Zsum]. rewrite app_nil_r. split; [reflexivity|]. split; [reflexivity|]. split; [intros [|i] row X; discriminate|].
    split; [reflexivity|]. split; [rewrite Nat.add_0_r; apply M|]. split; [reflexivity|]. split; [exact ID|]. intros i _. lia. }
  cbn [main_rounds]. destruct (gomory_part g (ask k) (env k) s) as [s1|] eqn:E1.
  2:{ exists None, [], s. cbn [map concat length]. rewrite app_nil_r. split; [reflexivity|]. split; [reflexivity|]. split; [intros [|i] row X; discriminate|].
      split; [reflexivity|]. split; [rewrite Nat.add_0_r; apply M|]. reflexivity. }
  destruct (vpc_info_ok k) as (cv & EV & _). rewrite EV.
  destruct (apply_part g (ask k) (env k) (m_obj (s_solver s)) (vpc_part (env k) s1)) as [s2|] eqn:E2.
  2:{ exists None, [], s. cbn [map concat length]. rewrite app_nil_r. split; [reflexivity|]. split; [reflexivity|]. split; [intros [|i] row X; discriminate|].
      split; [reflexivity|]. split; [rewrite Nat.add_0_r; apply M|]. reflexivity. }
  destruct (round_line k s s1 s2 cv M E1 EV E2) as (M2 & r & RD & SAY).
  destruct (round_times_ok (clk k) g (re_should (env k)) (negb (is_nil (round_vpcs (env k)))) (adds k) ts ID) as (ts2 & t & ET & ID2 & TT).
  rewrite ET, RD, rev_app_distr. cbn [rev app]. cbv zeta. specialize (SAY t).
  set (row := round_row g junk (ncols P) k r (gmic_info g eps (env k)) cv t) in *.
  assert (RS : row_says g env clk P eps inst k row).
  { apply SAY. destruct (spans _ _ _ _) as [[[gg ga] vg] va]. tauto. }
  assert (TK : forall i, In i [1; 4; 5]%Z -> ticks_of ts2 i = (ticks_of ts i + gained k i)%Z).
  { intros i I. unfold gained. cbn [nth_round r_ticks]. destruct (spans _ _ _ _) as [[[gg ga] vg] va]. destruct TT as (_ & _ & _ & _ & T1 & T4 & T5).
    cbn [In] in I. destruct I as [<-|[<-|[<-|[]]]]; cbn [Z.eqb Pos.eqb]; assumption. }
  clearbody row. clear SAY TT.
  destruct (stops g (env k) s2) eqn:ST.
  { exists (Some (s2, ts2)), [row], s2. cbn [map concat length main_rounds seq Zsum]. rewrite app_nil_r. split; [reflexivity|]. split; [reflexivity|]. split.
    - intros [|[|i]] row' X; cbn in X; try discriminate. injection X as <-. rewrite Nat.add_0_r. exact RS.
    - rewrite E1, E2, ST. split; [reflexivity|]. split; [rewrite (proj2 (proj2 (proj2 M2))); lia|]. split; [reflexivity|]. split; [exact ID2|]. intros i I. rewrite (TK i I). lia. }
  destruct (IH (S k) s2 ts2 (file ++ CutRounds.line row) M2 ID2) as (o & rows & s3 & P1 & P2 & P3 & P4 & P5 & P6).
  exists o, (row :: rows), s3. split; [rewrite P1; cbn [map concat]; rewrite app_assoc; reflexivity|]. split; [exact P2|]. split; [|split; [|split]].
  - intros [|i] row' X; cbn [nth_error] in X; [injection X as <-; rewrite Nat.add_0_r; exact RS|]. replace (k + S i)%nat with (S k + i)%nat by lia. apply P3, X.
  - cbn [length main_rounds]. rewrite E1, E2, ST. exact P4.
  - cbn [length]. lia.
  - destruct o as [[s' ts']|].
    + destruct P6 as (Q1 & Q2 & Q3). split; [exact Q1|]. split; [exact Q2|]. intros i I. cbn [length seq map Zsum]. rewrite (Q3 i I), (TK i I). lia.
    + cbn [length]. exact P6.
Qed.
End Lines.

Lemma split_line l : split_lines (CutRounds.line l) = ([l], []).
Proof. exact (C70_Program.split_line l). Qed.
Lemma split_rows rows : split_lines (concat (map CutRounds.line rows)) = (rows, []).
Proof. induction rows as [|r l IH]; [reflexivity|]. cbn [map concat]. exact (C70_Program.split_more _ _ _ _ (split_line r) IH). Qed.
(** Round 0: no cuts, and the time of the first solve. *)
Definition round0 (ticks : Z) : theround :=
  {| r_no := 0; r_gomory := true; r_gm_upto := []; r_vp_upto := []; r_gm := []; r_vp := []; r_ticks := (0, ticks, 0, ticks)%Z |}.
Lemma option_bit temp : use_temp_option temp PRINT_BOUND_BY_ROUND = Z.testbit temp 4.
Proof.
  unfold use_temp_option. cbn [temp_value]. change 16%Z with (2 ^ 4)%Z. destruct (Z.testbit temp 4) eqn:E.
  - destruct (Z.eqb_spec (Z.land temp (2 ^ 4)) 0) as [Z0|]; [|reflexivity]. apply (f_equal (fun x => Z.testbit x 4)) in Z0. rewrite Z.land_spec, E in Z0. discriminate.
  - destruct (Z.eqb_spec (Z.land temp (2 ^ 4)) 0) as [|N]; [reflexivity|]. elim N. apply Z.bits_inj'. intros i I. rewrite Z.land_spec, Z.bits_0.
    destruct (Z.eqb_spec i 4) as [->|X]; [rewrite E; reflexivity|]. rewrite Z.pow2_bits_false by lia. apply Bool.andb_false_r.
Qed.

(** The file exists exactly when bit 4 of TEMP is set.  Its first line has the names, its second line is round 0 (the values of the
    relaxation), and then there is one line for every round completed, in order, also when the program ends with an error in a later
    round.  Under each name stands what the name says. *)
Theorem file_lines : forall temp g ask env gens clk adds eps junk inst P v0 ticks ts n,
  (-1 <= g <= 1)%Z -> (forall k i, decisive (lists env) P (ask k i)) -> lp_opt P v0 -> counted env -> consistent env gens -> cuts_fit P env -> (0 < ncols P)%nat -> idle ts ->
  exists o file rows s1, cutrounds temp g ask env gens clk adds eps junk inst P v0 (sec ticks) ts n = (o, if Z.testbit temp 4 then Some file else None) /\
    split_lines file = (map TextF (round_names inst) :: first_row v0 (sec ticks) :: rows, []) /\
    (forall j name f, (0 < j)%nat -> nth_error (round_names inst) j = Some name -> nth_error (first_row v0 (sec ticks)) j = Some f ->
       if existsb (String.eqb name) unkept then f = NumF 0 else shows P eps (round0 ticks) name f) /\
    (forall i row, nth_error rows i = Some row -> row_says g env clk P eps inst i row) /\
    main_rounds g ask env (length rows) 0 (main_start P v0) = Some s1 /\ length (s_rounds s1) = length rows /\
    match o with
    | None => main_rounds g ask env n 0 (main_start P v0) = None /\ main_rounds g ask env (S (length rows)) 0 (main_start P v0) = None
    | Some (s', ts') => main_rounds g ask env n 0 (main_start P v0) = Some s' /\ s' = s1
    end.
Proof.
  intros temp g ask env gens clk adds eps junk inst P v0 ticks ts n GB D O CT CO FIT NC ID.
  assert (M : met g env P 0 (main_start P v0)) by (split; [reflexivity|]; split; [reflexivity|]; split; [apply contents_start, O|reflexivity]).
  unfold cutrounds. rewrite option_bit.
  destruct (all_lines g ask env gens clk eps junk P inst GB D CT CO FIT NC adds n 0 (main_start P v0) ts (CutRounds.line (map TextF (round_names inst)) ++ CutRounds.line (first_row v0 (sec ticks))) M ID)
    as (o & rows & s1 & P1 & P2 & P3 & P4 & P5 & P6).
  rewrite P1. eexists o, _, rows, s1. split; [reflexivity|]. split; [|split; [|split; [|split; [|split]]]].
  - refine (C70_Program.split_more _ _ [_; _] _ _ (split_rows rows)). exact (C70_Program.split_more _ _ _ _ (split_line _) (split_line _)).
  - assert (OW : optimum_with P [] v0).
    { destruct O as [(x & F & E) O]. split; [exists x; split; [split; [exact F|constructor]|exact E]|intros y [Y _]; exact (O y Y)]. }
    intros j name f J EN EF.
    destruct j as [|[|[|[|[|[|[|[|[|[|[|[|[|[|[|[|j]]]]]]]]]]]]]]]]; [lia| | | | | | | | | | | | | | | |destruct j; discriminate EN];
      cbn [nth_error round_names first_row] in EN, EF; injection EN as <-; injection EF as <-.
    all: match goal with |- context [existsb ?p unkept] => let b := eval vm_compute in (existsb p unkept) in change (existsb p unkept) with b; cbv iota end.
    all: try reflexivity.
    + apply sh_gmic; [reflexivity|exact OW].
    + apply sh_vpc. exact OW.
    + apply sh_all. exact OW.
    + exact (sh_ngmic P eps (round0 ticks)).
    + apply sh_dgmic. cbn. reflexivity.
    + apply sh_ggen. reflexivity.
    + apply sh_gapp. reflexivity.
    + exact (sh_nvpc P eps (round0 ticks)).
    + apply sh_dvpc. cbn. reflexivity.
    + apply sh_vgen. reflexivity.
    + apply sh_vapp. reflexivity.
  - exact P3.
  - exact P4.
  - exact P5.
  - destruct o as [[s' ts']|]; cbn [option_map fst] in P2; [split; [symmetry; exact P2|apply P6]|split; [symmetry; exact P2|exact P6]].
Qed.
Print Assumptions file_lines.

(** The columns with times of generating GMICs, of generating VPCs and of applying VPCs add up to the totals the log file shows for them (if those
    were 0 before the rounds). *)
Definition cells_under (inst name : string) (rows : list (list field)) (qs : list Q) : Prop :=
  exists j, nth_error (round_names inst) j = Some name /\ (0 < j)%nat /\ Forall2 (fun row q => nth_error row j = Some (NumF q)) rows qs.
Lemma row_time g env clk P eps inst k row j name : row_says g env clk P eps inst k row -> In (j, name) [(8, "gmic_gen_time"); (14, "vpc_gen_time"); (15, "vpc_apply_time")]%nat%string ->
  exists q, nth_error row j = Some (NumF q) /\ q == sec (gained g env clk k (if (j =? 8)%nat then 1 else if (j =? 14)%nat then 4 else 5)).
Proof.
  intros (L & _ & S) I. unfold gained.
  assert (X : forall m, (m < 16)%nat -> exists f, nth_error row m = Some f).
  { intros m LT. destruct (nth_error row m) as [f|] eqn:E; [exists f; reflexivity|]. apply nth_error_None in E. rewrite L in E. cbn in E. lia. }
  destruct (r_ticks (nth_round g env clk k)) as [[[gg ga] vg] va] eqn:RT.
  cbn [In] in I. destruct I as [[= <- <-]|[[= <- <-]|[[= <- <-]|[]]]]; cbn [Nat.eqb Z.eqb Pos.eqb].
  - destruct (X 8%nat ltac:(lia)) as [f E]. assert (SH := S 8%nat _ f ltac:(lia) eq_refl E). cbn [existsb unkept String.eqb orb] in SH.
    rewrite E. inversion SH as [| | | | | |x H| | | | |]. exists x. rewrite RT in H. split; [reflexivity|exact H].
  - destruct (X 14%nat ltac:(lia)) as [f E]. assert (SH := S 14%nat _ f ltac:(lia) eq_refl E). cbn [existsb unkept String.eqb orb] in SH.
    rewrite E. inversion SH as [| | | | | | | | | |x H|]. exists x. rewrite RT in H. split; [reflexivity|exact H].
  - destruct (X 15%nat ltac:(lia)) as [f E]. assert (SH := S 15%nat _ f ltac:(lia) eq_refl E). cbn [existsb unkept String.eqb orb] in SH.
    rewrite E. inversion SH as [| | | | | | | | | | |x H]. exists x. rewrite RT in H. split; [reflexivity|exact H].
Qed.
Lemma sec_add a b : sec (a + b) == sec a + sec b.
Proof. unfold sec. rewrite inject_Z_plus. field. Qed.
Theorem times_add_up : forall temp g ask env gens clk adds eps junk inst P v0 ticks ts n s ts' file,
  (-1 <= g <= 1)%Z -> (forall k i, decisive (lists env) P (ask k i)) -> lp_opt P v0 -> counted env -> consistent env gens -> cuts_fit P env -> (0 < ncols P)%nat -> idle ts ->
  cutrounds temp g ask env gens clk adds eps junk inst P v0 (sec ticks) ts n = (Some (s, ts'), Some file) ->
  exists rows, fst (split_lines file) = map TextF (round_names inst) :: first_row v0 (sec ticks) :: rows /\
    forall name i, In (name, i) [("gmic_gen_time", 1); ("vpc_gen_time", 4); ("vpc_apply_time", 5)]%string%Z ->
      exists qs, cells_under inst name rows qs /\ sec (ticks_of ts' i) == sec (ticks_of ts i) + Qsumf (fun q => q) qs.
Proof.
  intros temp g ask env gens clk adds eps junk inst P v0 ticks ts n s ts' file GB D O CT CO FIT NC ID H.
  assert (M : met g env P 0 (main_start P v0)) by (split; [reflexivity|]; split; [reflexivity|]; split; [apply contents_start, O|reflexivity]).
  unfold cutrounds in H.
  destruct (all_lines g ask env gens clk eps junk P inst GB D CT CO FIT NC adds n 0 (main_start P v0) ts (CutRounds.line (map TextF (round_names inst)) ++ CutRounds.line (first_row v0 (sec ticks))) M ID)
    as (o & rows & s1 & P1 & P2 & P3 & P4 & P5 & P6).
  rewrite P1 in H. destruct (use_temp_option _ _); [|discriminate]. assert (HO := f_equal fst H). assert (HF := f_equal (fun x => match snd x with Some f => f | None => [] end) H). cbn [fst snd] in HO, HF. cbv beta iota in HF. clear H. rewrite HO in *. rewrite <- HF. exists rows. split.
  { rewrite (C70_Program.split_more _ _ [map TextF (round_names inst); first_row v0 (sec ticks)] rows); [reflexivity| |apply split_rows]. exact (C70_Program.split_more _ _ _ _ (split_line _) (split_line _)). }
  destruct P6 as (_ & _ & TK).
  assert (G : forall j name, In (j, name) [(8, "gmic_gen_time"); (14, "vpc_gen_time"); (15, "vpc_apply_time")]%nat%string ->
    forall rows k, (forall i row, nth_error rows i = Some row -> row_says g env clk P eps inst (k + i) row) ->
    exists qs, Forall2 (fun row q => nth_error row j = Some (NumF q)) rows qs /\
      sec (Zsum (map (fun k => gained g env clk k (if (j =? 8)%nat then 1 else if (j =? 14)%nat then 4 else 5)) (seq k (length rows)))) == Qsumf (fun q => q) qs).
  { intros j name J. induction rows0 as [|row l IH]; intros k R; [exists []; split; [constructor|reflexivity]|].
    assert (R0 := R 0%nat row eq_refl). rewrite Nat.add_0_r in R0. destruct (row_time _ _ _ _ _ _ _ _ j name R0 J) as (q & E & Q).
    destruct (IH (S k)) as (qs & F & SQ). { intros i row' X. replace (S k + i)%nat with (k + S i)%nat by lia. apply R. exact X. }
    exists (q :: qs). split; [constructor; assumption|]. cbn [length seq map Zsum]. rewrite sec_add, Qsumf_cons, SQ, Q. reflexivity. }
  intros name i I. cbn [In] in I. destruct I as [[= <- <-]|[[= <- <-]|[[= <- <-]|[]]]].
  - destruct (G 8%nat "gmic_gen_time"%string ltac:(cbn; tauto) rows 0%nat P3) as (qs & F & SQ). exists qs. split; [exists 8%nat; split; [reflexivity|]; split; [lia|exact F]|].
    rewrite (TK 1%Z ltac:(cbn; tauto)), sec_add, <- SQ. reflexivity.
  - destruct (G 14%nat "vpc_gen_time"%string ltac:(cbn; tauto) rows 0%nat P3) as (qs & F & SQ). exists qs. split; [exists 14%nat; split; [reflexivity|]; split; [lia|exact F]|].
    rewrite (TK 4%Z ltac:(cbn; tauto)), sec_add, <- SQ. reflexivity.
  - destruct (G 15%nat "vpc_apply_time"%string ltac:(cbn; tauto) rows 0%nat P3) as (qs & F & SQ). exists qs. split; [exists 15%nat; split; [reflexivity|]; split; [lia|exact F]|].
    rewrite (TK 5%Z ltac:(cbn; tauto)), sec_add, <- SQ. reflexivity.
Qed.
Print Assumptions times_add_up.

(** The columns for minimum and maximum density never show what their names promise: with cuts the minimum shown is that of 2147483647
    coefficients and the maximum that of none, in every line of every run. *)
Lemma nonzeros_fit eps c : (nonzeros eps c <= length (crow c))%nat.
Proof. apply filter_len. Qed.
Theorem density_range_refuted : forall temp g ask env gens clk adds eps junk inst P v0 ticks ts n o file,
  (-1 <= g <= 1)%Z -> (forall k i, decisive (lists env) P (ask k i)) -> lp_opt P v0 -> counted env -> consistent env gens -> cuts_fit P env -> (0 < ncols P)%nat -> (Z.of_nat (ncols P) < 2147483647)%Z -> idle ts ->
  cutrounds temp g ask env gens clk adds eps junk inst P v0 (sec ticks) ts n = (o, Some file) ->
  forall i row j f, nth_error (fst (split_lines file)) (S (S i)) = Some row -> nth_error row j = Some f ->
  let r := nth_round g env clk i in
  (nth_error (round_names inst) j = Some "min_density_gmic"%string -> r_gm r <> [] -> (0 < j)%nat -> ~ promises P eps r "min_density_gmic" f) /\
  (nth_error (round_names inst) j = Some "min_density_vpc"%string -> r_vp r <> [] -> (0 < j)%nat -> ~ promises P eps r "min_density_vpc" f) /\
  (nth_error (round_names inst) j = Some "max_density_gmic"%string -> (exists c, In c (r_gm r) /\ (0 < nonzeros eps c)%nat) -> (0 < j)%nat -> ~ promises P eps r "max_density_gmic" f) /\
  (nth_error (round_names inst) j = Some "max_density_vpc"%string -> (exists c, In c (r_vp r) /\ (0 < nonzeros eps c)%nat) -> (0 < j)%nat -> ~ promises P eps r "max_density_vpc" f).
Proof.
  intros temp g ask env gens clk adds eps junk inst P v0 ticks ts n o file GB D O CT CO FIT NC NB ID H.
  destruct (file_lines temp g ask env gens clk adds eps junk inst P v0 ticks ts n GB D O CT CO FIT NC ID) as (o' & file' & rows & s1 & E & SL & _ & RS & _).
  rewrite E in H. destruct (Z.testbit temp 4); [|discriminate]. assert (HF := f_equal (fun x => match snd x with Some f => f | None => [] end) H). cbn [snd] in HF. cbv beta iota in HF. clear H.
  rewrite <- HF, SL. cbn [fst nth_error]. intros i row j f ER EF. specialize (RS i row ER). destruct RS as (_ & _ & RS). cbv zeta. set (r := nth_round g env clk i) in *.
  set (N := inject_Z (Z.of_nat (ncols P))).
  assert (N1 : 1 <= N) by (unfold N; change 1 with (inject_Z 1); rewrite <- Zle_Qle; lia).
  assert (FG : forall c, In c (r_gm r) -> (nonzeros eps c <= ncols P)%nat).
  { intros c I. pose proof (nonzeros_fit eps c) as A. unfold r in I. cbn [nth_round r_gm] in I. unfold gmics_of in I. destruct (_ || _); [|destruct I]. specialize (FIT i c (or_introl I)). lia. }
  assert (FV : forall c, In c (r_vp r) -> (nonzeros eps c <= ncols P)%nat).
  { intros c I. pose proof (nonzeros_fit eps c) as A. unfold r in I. cbn [nth_round r_vp] in I. unfold round_vpcs in I. destruct (re_should _); [|destruct I]. specialize (FIT i c (or_intror I)). lia. }
  assert (MIN : forall m x, x * N == 100 * 2147483647 -> x = 100 * inject_Z m / N -> m = 2147483647%Z).
  { intros m x X E1. rewrite E1 in X. assert (Y : inject_Z m == inject_Z 2147483647) by (change (inject_Z 2147483647) with 2147483647; assert (Z0 : 100 * inject_Z m / N * N == 100 * inject_Z m) by (field; lra); lra).
    unfold Qeq in Y. cbn in Y. lia. }
  assert (MAX : forall m x, x == 0 -> x = 100 * inject_Z m / N -> m = 0%Z).
  { intros m x X E1. rewrite E1 in X. assert (Y : inject_Z m == inject_Z 0) by (change (inject_Z 0) with 0; assert (Z0 : 100 * inject_Z m / N * N == 100 * inject_Z m) by (field; lra); rewrite X in Z0; lra).
    unfold Qeq in Y. cbn in Y. lia. }
  split; [|split; [|split]].
  - intros EN NE J PR. specialize (RS j _ f J EN EF). cbn [existsb unkept String.eqb Ascii.eqb Bool.eqb orb] in RS.
    inversion PR as [m [(c & IC & LM) _] Q1| | |]. subst f. inversion RS as [nm x IN R0 X Q2 Q3|nm x IN R0 X Q2 Q3|x R0 X Q2|x R0 X Q2|x R0 X Q2|x R0 X Q2].
    + elim NE. exact R0.
    + cbn in IN. intuition discriminate.
    + pose proof (MIN m _ X eq_refl). specialize (FG c IC). lia.
  - intros EN NE J PR. specialize (RS j _ f J EN EF). cbn [existsb unkept String.eqb Ascii.eqb Bool.eqb orb] in RS.
    inversion PR as [| |m [(c & IC & LM) _] Q1|]. subst f. inversion RS as [nm x IN R0 X Q2 Q3|nm x IN R0 X Q2 Q3|x R0 X Q2|x R0 X Q2|x R0 X Q2|x R0 X Q2].
    + cbn in IN. intuition discriminate.
    + elim NE. exact R0.
    + pose proof (MIN m _ X eq_refl). specialize (FV c IC). lia.
  - intros EN (c & IC & NZ) J PR. specialize (RS j _ f J EN EF). cbn [existsb unkept String.eqb Ascii.eqb Bool.eqb orb] in RS.
    inversion PR as [|m [_ LM] Q1| |]. subst f. specialize (LM c IC). inversion RS as [nm x IN R0 X Q2 Q3|nm x IN R0 X Q2 Q3|x R0 X Q2|x R0 X Q2|x R0 X Q2|x R0 X Q2].
    + rewrite R0 in IC. destruct IC.
    + cbn in IN. intuition discriminate.
    + pose proof (MAX m _ X eq_refl). lia.
  - intros EN (c & IC & NZ) J PR. specialize (RS j _ f J EN EF). cbn [existsb unkept String.eqb Ascii.eqb Bool.eqb orb] in RS.
    inversion PR as [| | |m [_ LM] Q1]. subst f. specialize (LM c IC). inversion RS as [nm x IN R0 X Q2 Q3|nm x IN R0 X Q2 Q3|x R0 X Q2|x R0 X Q2|x R0 X Q2|x R0 X Q2].
    + cbn in IN. intuition discriminate.
    + rewrite R0 in IC. destruct IC.
    + pose proof (MAX m _ X eq_refl). lia.
Qed.
Print Assumptions density_range_refuted.

(** The program's timers when the rounds start (registered, total time running, the first solve timed) are as the theorems ask. *)
Theorem timers_ready : forall t0 t1 t2 t3, exists s,
  TimeStats.trun TimeStats.ts_new (map (fun n => (t0, TimeStats.Register n 0%Z)) overall_times ++
    [(t1, TimeStats.Start (TimeStats.ById 14)); (t2, TimeStats.Start (TimeStats.ById 0)); (t3, TimeStats.End (TimeStats.ById 0))]) = Some s /\ idle s /\
  ticks_of s 0 = (Z.of_nat t3 - Z.of_nat t2)%Z /\ forall i, In i [1; 4; 5]%Z -> ticks_of s i = 0%Z.
Proof.
  intros. eexists. split; [cbv -[Z.of_nat Z.sub Z.add]; reflexivity|].
  split.
  - eexists. split; [split; [reflexivity|intros j J; reflexivity]|]. intros i I. cbn in I. destruct I as [<-|[<-|[<-|[<-|[<-|[<-|[]]]]]]]; reflexivity.
  - split; [match goal with |- ?l = _ => change l with (0 + Z.of_nat t3 - Z.of_nat t2)%Z end; lia|]. intros i I. cbn in I. destruct I as [<-|[<-|[<-|[]]]]; reflexivity.
Qed.
Print Assumptions timers_ready.

(** ** The name of the file. *)
Definition terms_text (terms : Z) : text := if (terms =? INT_MAX)%Z then txt "inf" else if (terms =? - INT_MAX)%Z then txt "-inf" else Names.int_text terms.
Lemma name_eq log inst terms : cutrounds_name log inst terms =
  (if text_eqb log [] then txt "cutrounds" else match parseFilename log with Parsed dir _ _ => dir | ParseErr _ => [] end ++ txt "/" ++ txt "cutrounds" ++ txt "_" ++ inst) ++ txt "_d" ++ terms_text terms ++ txt ".csv".
Proof. reflexivity. Qed.
Lemma split_last {A} (c : A) : forall a b a' b', ~ In c b -> ~ In c b' -> a ++ c :: b = a' ++ c :: b' -> a = a' /\ b = b'.
Proof.
  induction a as [|x a IH]; intros b [|y a'] b' N N' E; cbn [app] in E.
  - injection E as E. split; [reflexivity|exact E].
  - injection E as <- ->. elim N. apply in_or_app. right. left. reflexivity.
  - injection E as -> <-. elim N'. apply in_or_app. right. left. reflexivity.
  - injection E as <- E. destruct (IH b a' b' N N' E) as [-> ->]. split; reflexivity.
Qed.
Lemma signed_chars t z : NameSpec.signed t z -> Forall (fun c => (45 <= nat_of_ascii c <= 57)%nat) t.
Proof.
  intros [(_ & F & _)|(u & w & -> & (_ & F & _) & _)].
  - eapply Forall_impl; [|exact F]. cbn. intros; lia.
  - constructor; [cbn; lia|]. eapply Forall_impl; [|exact F]. cbn. intros; lia.
Qed.
Lemma terms_chars t c : In c (terms_text t) -> c <> "_"%char.
Proof.
  unfold terms_text. destruct (t =? INT_MAX)%Z; [cbn; intuition (subst; discriminate)|]. destruct (t =? - INT_MAX)%Z; [cbn; intuition (subst; discriminate)|].
  intros I ->. pose proof (signed_chars _ _ (NamesP.int_text_spec t)) as F. rewrite Forall_forall in F. specialize (F _ I). cbn in F. lia.
Qed.
Lemma signed_inj t z z' : NameSpec.signed t z -> NameSpec.signed t z' -> z = z'.
Proof.
  intros [(N & F & E)|(u & w & E & (N & F & W) & V)] [(N' & F' & E')|(u' & w' & E' & (N' & F' & W') & V')].
  - congruence.
  - rewrite E' in F. inversion_clear F as [|? ? X _]. cbn in X. lia.
  - rewrite E in F'. inversion_clear F' as [|? ? X _]. cbn in X. lia.
  - rewrite E in E'. injection E' as <-. congruence.
Qed.
Lemma terms_inj t t' : terms_text t = terms_text t' -> t = t'.
Proof.
  assert (NI : forall z, Names.int_text z <> txt "inf" /\ Names.int_text z <> txt "-inf").
  { intro z. pose proof (signed_chars _ _ (NamesP.int_text_spec z)) as F. split; intro E; rewrite E in F; repeat (let X := fresh in let Y := fresh in inversion F as [|? ? X Y]; clear F; subst; rename Y into F; cbn in X; try lia). }
  unfold terms_text. destruct (Z.eqb_spec t INT_MAX) as [->|A], (Z.eqb_spec t' INT_MAX) as [->|A']; try reflexivity;
    [destruct (Z.eqb_spec t' (- INT_MAX)) as [->|B']|destruct (Z.eqb_spec t (- INT_MAX)) as [->|B]|destruct (Z.eqb_spec t (- INT_MAX)) as [->|B], (Z.eqb_spec t' (- INT_MAX)) as [->|B']]; try reflexivity; try discriminate;
    intro E; try (exfalso; first [exact (proj1 (NI _) E)|exact (proj2 (NI _) E)|exact (proj1 (NI _) (eq_sym E))|exact (proj2 (NI _) (eq_sym E))]).
  pose proof (NamesP.int_text_spec t) as S. rewrite E in S. exact (signed_inj _ _ _ S (NamesP.int_text_spec t')).
Qed.
(** It is in the directory of the log file (the current one if that is named without directory), and there different instances or limits of
    terms have different files. *)
Theorem file_name : 
  (forall dir sep stub ext arch inst terms, (Z.of_nat (length dir + length stub + length ext) < 2 ^ 31)%Z -> sep = "/"%char \/ sep = ascii_of_nat 92 ->
     TextSpec.no_slash stub -> C36_FileNames.plain_ext ext -> arch = [] \/ arch = txt ".gz" \/ arch = txt ".bz2" ->
     cutrounds_name (dir ++ sep :: stub ++ "."%char :: ext ++ arch) inst terms = dir ++ txt "/cutrounds_" ++ inst ++ txt "_d" ++ terms_text terms ++ txt ".csv" /\
     cutrounds_name (stub ++ "."%char :: ext ++ arch) inst terms = txt "./cutrounds_" ++ inst ++ txt "_d" ++ terms_text terms ++ txt ".csv") /\
  (forall log inst terms inst' terms', log <> [] -> cutrounds_name log inst terms = cutrounds_name log inst' terms' -> inst = inst' /\ terms = terms').
Proof.
  split.
  - intros dir sep stub ext arch inst terms L S N X A. destruct (C36_FileNames.filename_parts dir sep stub ext arch L S N X A) as [E1 E2]. rewrite !name_eq.
    assert (NE : forall a b : text, text_eqb (a ++ "."%char :: b) [] = false).
    { intros a b. destruct (text_eqb (a ++ "."%char :: b) []) eqn:T; [|reflexivity]. apply TextP.text_eqb_eq in T. destruct a; discriminate. }
    rewrite E1, E2. replace (dir ++ sep :: stub ++ "."%char :: ext ++ arch) with ((dir ++ sep :: stub) ++ "."%char :: ext ++ arch) by (rewrite <- app_assoc; reflexivity). rewrite !NE. rewrite <- !app_assoc. split; reflexivity.
  - intros log inst terms inst' terms' NE E. rewrite !name_eq in E. destruct (text_eqb log []) eqn:T; [apply TextP.text_eqb_eq in T; elim NE; exact T|].
    rewrite <- !app_assoc in E. apply app_inv_head in E. do 3 apply app_inv_head in E.
    rewrite !(app_assoc (txt "_d")) in E. rewrite !app_assoc in E. apply app_inv_tail in E. change (txt "_d") with ("_"%char :: ["d"%char]) in E. rewrite <- !app_assoc in E. cbn [app] in E.
    apply split_last in E; [|intros [K|K]; [discriminate|exact (terms_chars _ _ K eq_refl)]|intros [K|K]; [discriminate|exact (terms_chars _ _ K eq_refl)]].
    destruct E as [EI ET]. injection ET as ET. split; [exact EI|exact (terms_inj _ _ ET)].
Qed.
Print Assumptions file_name.
(** Without a log file the name says nothing about the instance: runs on different instances write, one over the other, the same file.  And if the
    log file's name has no dot the file is put into the root directory. *)
Theorem file_name_refuted : (forall inst inst' terms, cutrounds_name [] inst terms = cutrounds_name [] inst' terms) /\
  cutrounds_name (txt "out/log") (txt "bm23") 4 = txt "/cutrounds_bm23_d4.csv".
Proof. split; reflexivity. Qed.
Print Assumptions file_name_refuted.

(** ** A run to which all of this applies: two rounds with GOMORY = 1; there is one Gomory cut and there are two VPCs in the first, none in the second. *)
Definition exgens (k : nat) : gstate := match k with
  | O => {| g_cuts := []; g_type := []; g_heur := []; g_disj := []; g_ntype := fun _ => 0%Z; g_nheur := fun _ => 0%Z; g_nobj := fun _ => 0%Z; g_nfailheur := fun _ => 0%Z; g_nfails := fun _ => 0%Z;
            g_num_cuts := 2; g_num_obj := 0; g_num_fail := 0; g_init := 0; g_canrep := false; g_repeat := false; g_mode := PARTIAL_BB; g_curr := 0; g_limit := 2 |}
  | _ => GenExamples.exg end.
Definition exclk (k i : nat) : nat := (20 * k + i + 100)%nat.
Definition exts : TimeStats.tstats := {| TimeStats.ts_names := []; TimeStats.ts_timers := repeat TimeStats.timer0 15 |}.
Example run_meets : (forall k i, decisive (lists exenv) exP ((fun _ _ : nat => exask) k i)) /\ lp_opt exP (1 # 3) /\ counted exenv /\ consistent exenv exgens /\ cuts_fit exP exenv /\ (0 < ncols exP)%nat /\
  (Z.of_nat (ncols exP) < 2147483647)%Z /\ idle exts /\
  exists s ts' file rows, cutrounds 16 1 (fun _ _ => exask) exenv exgens exclk (fun _ => []) EPS7 0 "bm23" exP (1 # 3) (sec 7) exts 5 = (Some (s, ts'), Some file) /\
    fst (split_lines file) = map TextF (round_names "bm23") :: first_row (1 # 3) (sec 7) :: rows /\
    map (fun row => map (nth_error row) [0; 1; 2; 3; 4; 10]%nat) rows =
      [map Some [IntF 1; NumF 1; NumF (1 # 2); NumF 1; IntF 1; IntF 2]; map Some [IntF 2; NumF 1; NumF (1 # 2); NumF 1; IntF 0; IntF 0]] /\
    r_gm (nth_round 1 exenv exclk 0) <> [] /\ (exists c, In c (r_vp (nth_round 1 exenv exclk 0)) /\ (0 < nonzeros EPS7 c)%nat).
Proof.
  split; [exact ex_decisive|]. split; [exact ex_opt|]. split; [intros [|k]; (split; [reflexivity|]); discriminate|]. split; [intros [|k] _; reflexivity|].
  split; [intros [|k] c [H|H]; cbn in H; try tauto; cbn [exP ncols]; decompose [or] H; subst; cbn; try lia; tauto|]. split; [cbn; lia|]. split; [cbn; lia|]. split.
  { exists (fun _ => TimeStats.timer0). split; [split; [reflexivity|]|reflexivity]. intros j J. unfold TimeStats.timer_at. cbn [exts TimeStats.ts_timers].
    destruct (Nat.lt_ge_cases (Z.to_nat j) 15); [rewrite nth_repeat; reflexivity|apply nth_overflow; rewrite repeat_length; assumption]. }
  set (run := cutrounds _ _ _ _ _ _ _ _ _ _ _ _ _ _ _).
  destruct (match fst run with Some _ => true | None => false end) eqn:E1; [|vm_compute in E1; discriminate].
  destruct (match snd run with Some _ => true | None => false end) eqn:E2; [|vm_compute in E2; discriminate].
  exists (match fst run with Some r => fst r | None => main_start exP 0 end), (match fst run with Some r => snd r | None => exts end), (match snd run with Some f => f | None => [] end),
    (skipn 2 (fst (split_lines (match snd run with Some f => f | None => [] end)))).
  split. { destruct run as [[[s ts']|] [f|]]; try discriminate. reflexivity. }
  split; [vm_compute; reflexivity|]. split; [vm_compute; reflexivity|]. split; [discriminate|]. exists (geq (1 # 2)). split; [left; reflexivity|vm_compute; lia].
Qed.
