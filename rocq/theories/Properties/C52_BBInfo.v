(** C52: statistics over repeated branch-and-bound runs. *)
From Verif Require Import Prelude Model.TextUtil Model.BBInfo Spec.NameSpec.
From Coq Require Import Lqa.

Definition least {A} (le : A -> A -> Prop) (f : bbinfo -> A) (runs : list bbinfo) (v : A) : Prop :=
  (exists r, In r runs /\ v = f r) /\ forall r, In r runs -> le v (f r).
Definition Qge (a b : Q) : Prop := b <= a.

Lemma best_field {A} (le : A -> A -> Prop) (op : A -> A -> A) (f : bbinfo -> A) :
  (forall x, le x x) -> (forall x y z, le x y -> le y z -> le x z) ->
  (forall x y, (op x y = x \/ op x y = y) /\ le (op x y) x /\ le (op x y) y) ->
  (forall b c, f (updateBestBBInfo b c false) = op (f b) (f c)) ->
  forall runs b, least le f (b :: runs) (f (best_loop b false runs)).
Proof.
  intros R T O U. induction runs as [|r runs IH]; intros b; cbn [best_loop].
  - split; [exists b; split; [left; reflexivity|reflexivity]|]. intros r [->|[]]. apply R.
  - destruct (IH (updateBestBBInfo b r false)) as ((w & Hw & E) & L).
    destruct (O (f b) (f r)) as (C & L1 & L2).
    split.
    + destruct Hw as [<-|Hw].
      * rewrite U in E. destruct C as [C|C]; [exists b|exists r]; (split; [cbn; auto|]); rewrite E; exact C.
      * exists w. split; [right; right; exact Hw|exact E].
    + pose proof (L _ (or_introl eq_refl)) as L0. rewrite U in L0.
      intros v [<-|[<-|Hv]]; [eapply T; eassumption|eapply T; eassumption|]. apply L. right. exact Hv.
Qed.
Lemma qmin_op x y : (qmin x y = x \/ qmin x y = y) /\ qmin x y <= x /\ qmin x y <= y.
Proof. unfold qmin. destruct (Qltb x y) eqn:E; [apply Qltb_lt in E|apply Qltb_ge in E]; (split; [auto|split; lra]). Qed.
Lemma qmax_op x y : (qmax x y = x \/ qmax x y = y) /\ Qge (qmax x y) x /\ Qge (qmax x y) y.
Proof. unfold qmax, Qge. destruct (Qltb y x) eqn:E; [apply Qltb_lt in E|apply Qltb_ge in E]; (split; [auto|split; lra]). Qed.
Lemma zmin_op x y : (zmin x y = x \/ zmin x y = y) /\ (zmin x y <= x)%Z /\ (zmin x y <= y)%Z.
Proof. unfold zmin. destruct (Z.ltb_spec x y); (split; [auto|split; lia]). Qed.

(** The best result: smallest objective, iterations, nodes, passes and times, largest bounds, each
    taken over all runs (whatever was stored before). *)
Theorem best_over_runs : forall s nc runs s', finish_runs s nc runs = Some s' ->
  let b := sm_best s' in
  least Qle bb_obj runs (bb_obj b) /\ least Qge bb_bound runs (bb_bound b) /\
  least Z.le bb_iters runs (bb_iters b) /\ least Z.le bb_nodes runs (bb_nodes b) /\
  least Z.le bb_root_passes runs (bb_root_passes b) /\
  least Qge bb_first_cut_pass runs (bb_first_cut_pass b) /\ least Qge bb_last_cut_pass runs (bb_last_cut_pass b) /\
  least Z.le bb_root_iters runs (bb_root_iters b) /\ least Qle bb_root_time runs (bb_root_time b) /\
  least Qle bb_last_sol_time runs (bb_last_sol_time b) /\ least Qle bb_time runs (bb_time b).
Proof.
  intros s nc [|r runs] s' H; [discriminate|]. unfold finish_runs in H.
  destruct (averageBBInfo (sm_avg s) (r :: runs)) as [avg|]; [|discriminate]. injection H as <-. cbn [sm_best best_loop].
  change (updateBestBBInfo (sm_best s) r true) with r. cbv zeta.
  assert (QL : forall f, (forall b c, f (updateBestBBInfo b c false) = qmin (f b) (f c)) ->
     least Qle f (r :: runs) (f (best_loop r false runs))).
  { intros f U. apply (best_field Qle qmin f Qle_refl Qle_trans qmin_op U). }
  assert (QG : forall f, (forall b c, f (updateBestBBInfo b c false) = qmax (f b) (f c)) ->
     least Qge f (r :: runs) (f (best_loop r false runs))).
  { intros f U. apply (best_field Qge qmax f); [intros x; apply Qle_refl|intros x y z A B; unfold Qge in *; lra|exact qmax_op|exact U]. }
  assert (ZL : forall f, (forall b c, f (updateBestBBInfo b c false) = zmin (f b) (f c)) ->
     least Z.le f (r :: runs) (f (best_loop r false runs))).
  { intros f U. apply (best_field Z.le zmin f Z.le_refl Z.le_trans zmin_op U). }
  repeat match goal with |- _ /\ _ => split end; first [apply QL|apply QG|apply ZL]; reflexivity.
Qed.

(** The first result is the first run; the runs are kept in order. *)
Theorem first_and_all_runs : forall s nc runs s', finish_runs s nc runs = Some s' ->
  sm_vec s' = runs /\ head runs = Some (sm_first s') /\ sm_num_cuts s' = nc.
Proof.
  intros s nc [|r runs] s' H; [discriminate|]. unfold finish_runs in H.
  destruct (averageBBInfo (sm_avg s) (r :: runs)); [|discriminate]. injection H as <-. repeat split.
Qed.

Definition qsum (f : bbinfo -> Q) (runs : list bbinfo) : Q := fold_right (fun r s => f r + s) 0 runs.
Definition zsum (f : bbinfo -> Z) (runs : list bbinfo) : Z := fold_right (fun r s => f r + s)%Z 0%Z runs.
Lemma add_q (f : bbinfo -> Q) : (forall a c, f (bb_add a c) = f a + f c) ->
  forall runs a, f (fold_left bb_add runs a) == f a + qsum f runs.
Proof.
  intros U. induction runs as [|r runs IH]; intros a; cbn [fold_left qsum fold_right]; [ring|].
  rewrite IH, U. fold (qsum f runs). ring.
Qed.
Lemma add_z (f : bbinfo -> Z) : (forall a c, f (bb_add a c) = f a + f c)%Z ->
  forall runs a, f (fold_left bb_add runs a) = (f a + zsum f runs)%Z.
Proof.
  intros U. induction runs as [|r runs IH]; intros a; cbn [fold_left zsum fold_right]; [ring|].
  rewrite IH, U. fold (zsum f runs). ring.
Qed.
(** For a fresh summary, each averaged double is the mean of the runs, each averaged counter the
    mean rounded towards zero. *)
Definition mean_q (f : bbinfo -> Q) (runs : list bbinfo) (v : Q) : Prop :=
  v * inject_Z (Z.of_nat (length runs)) == qsum f runs.
Definition mean_z (f : bbinfo -> Z) (runs : list bbinfo) (v : Z) : Prop :=
  v = Z.quot (zsum f runs) (Z.of_nat (length runs)).
Theorem average_over_runs : forall nc runs s', finish_runs sm_new nc runs = Some s' ->
  let a := sm_avg s' in
  mean_q bb_obj runs (bb_obj a) /\ mean_q bb_bound runs (bb_bound a) /\
  mean_z bb_iters runs (bb_iters a) /\ mean_z bb_nodes runs (bb_nodes a) /\
  mean_z bb_root_passes runs (bb_root_passes a) /\
  mean_q bb_first_cut_pass runs (bb_first_cut_pass a) /\ mean_q bb_last_cut_pass runs (bb_last_cut_pass a) /\
  mean_z bb_root_iters runs (bb_root_iters a) /\ mean_q bb_root_time runs (bb_root_time a) /\
  mean_q bb_last_sol_time runs (bb_last_sol_time a) /\ mean_q bb_time runs (bb_time a).
Proof.
  intros nc runs s' H. unfold finish_runs in H. destruct runs as [|r0 runs0] eqn:Er; [discriminate|]. rewrite <- Er in *.
  destruct (averageBBInfo (sm_avg sm_new) runs) as [avg|] eqn:Ea; [|discriminate].
  assert (NZ : ~ inject_Z (Z.of_nat (length runs)) == 0).
  { intros E. change 0 with (inject_Z 0) in E. rewrite inject_Z_injective in E. subst runs. cbn [length] in E. lia. }
  assert (As : sm_avg s' = avg) by (injection H as <-; reflexivity). cbv zeta. rewrite As. clear H As.
  assert (Ea' : avg = bb_divide (fold_left bb_add runs bb_zero) (Z.of_nat (length runs))).
  { unfold averageBBInfo in Ea. subst runs. injection Ea as <-. reflexivity. }
  assert (MQ : forall f, (forall a c, f (bb_add a c) = f a + f c) -> f bb_zero = 0 ->
     (forall a n, f (bb_divide a n) = f a / inject_Z n) -> mean_q f runs (f avg)).
  { intros f U Z0 D. unfold mean_q. rewrite Ea', D, (add_q f U runs bb_zero), Z0. field. exact NZ. }
  assert (MZ : forall f, (forall a c, f (bb_add a c) = f a + f c)%Z -> f bb_zero = 0%Z ->
     (forall a n, f (bb_divide a n) = Z.quot (f a) n) -> mean_z f runs (f avg)).
  { intros f U Z0 D. unfold mean_z. rewrite Ea', D, (add_z f U runs bb_zero), Z0. reflexivity. }
  repeat match goal with |- _ /\ _ => split end; first [apply MQ|apply MZ]; reflexivity.
Qed.
Definition ex_run (o b t : Q) (n : Z) : bbinfo := Build_bbinfo o b (10 * n) n 1 b b 5 t t t.
Example runs_example : exists s', finish_runs sm_new 3 [ex_run 10 9 2 4; ex_run 12 10 4 9] = Some s' /\
  bb_obj (sm_best s') = 10 /\ bb_bound (sm_best s') = 10 /\ bb_nodes (sm_best s') = 4%Z /\
  bb_nodes (sm_avg s') = 6%Z /\ bb_time (sm_avg s') == 3.
Proof. eexists. split; [vm_compute; reflexivity|]. repeat split. Qed.

(** Using a summary a second time: the old averages enter the new ones.  Here one run of 4 nodes,
    repeated with the same summary, averages to 8. *)
Theorem average_reused_refuted : exists s1 s2,
  finish_runs sm_new 0 [ex_run 10 9 2 4] = Some s1 /\ finish_runs s1 0 [ex_run 10 9 2 4] = Some s2 /\
  bb_nodes (sm_avg s2) = 8%Z.
Proof. eexists _, _. split; [vm_compute; reflexivity|]. split; vm_compute; reflexivity. Qed.

(** Which runs are made: the digits of BB_MODE (ones: without cuts, tens: with VPCs, hundreds: also
    with Gomory cuts), |BB_RUNS| times, none when cuts were asked for and not found. *)
Theorem runs_planned : forall runs k h t o disj nv ng,
  (0 <= k)%Z -> (0 <= h <= 9)%Z -> (0 <= t <= 9)%Z -> (0 <= o <= 9)%Z ->
  let mode := (1000 * k + 100 * h + 10 * t + o)%Z in
  match bb_plan runs mode disj nv ng with
  | Some p => pl_runs p = Z.abs runs /\ runs <> 0%Z /\ (disj = 0 \/ 0 < nv)%Z /\
              (pl_nocuts p = true <-> (0 < o)%Z) /\
              (pl_vpcs p = true <-> (0 < t /\ 0 < nv)%Z) /\ (pl_gmics p = true <-> (0 < h /\ 0 < ng)%Z) /\
              (pl_nocuts p || pl_vpcs p || pl_gmics p = true)
  | None => runs = 0%Z \/ (disj <> 0 /\ nv <= 0)%Z \/
            (o = 0 /\ (t = 0 \/ nv <= 0) /\ (h = 0 \/ ng <= 0))%Z
  end.
Proof.
  intros runs k h t o disj nv ng Hk Hh Ht Ho mode.
  assert (M1 : Z.rem mode 10 = o).
  { rewrite Z.rem_mod_nonneg by (unfold mode; lia). unfold mode.
    replace (1000 * k + 100 * h + 10 * t + o)%Z with (o + (100 * k + 10 * h + t) * 10)%Z by ring.
    rewrite Z.mod_add by lia. apply Z.mod_small. lia. }
  assert (M2 : Z.rem mode 100 = (10 * t + o)%Z).
  { rewrite Z.rem_mod_nonneg by (unfold mode; lia). unfold mode.
    replace (1000 * k + 100 * h + 10 * t + o)%Z with (10 * t + o + (10 * k + h) * 100)%Z by ring.
    rewrite Z.mod_add by lia. apply Z.mod_small. lia. }
  assert (M3 : Z.rem mode 1000 = (100 * h + 10 * t + o)%Z).
  { rewrite Z.rem_mod_nonneg by (unfold mode; lia). unfold mode.
    replace (1000 * k + 100 * h + 10 * t + o)%Z with (100 * h + 10 * t + o + k * 1000)%Z by ring.
    rewrite Z.mod_add by lia. apply Z.mod_small. lia. }
  unfold bb_plan. rewrite M1, M2, M3.
  replace (10 * t + o - o)%Z with (t * 10)%Z by ring. rewrite Z.quot_mul by lia.
  replace (100 * h + 10 * t + o - (10 * t + o))%Z with (h * 100)%Z by ring. rewrite Z.quot_mul by lia.
  unfold num_bb_runs.
  destruct (Z.eqb_spec disj 0) as [D|D]; destruct (Z.ltb_spec 0 nv) as [V|V]; cbn [orb];
    rewrite ?Z.mul_1_r, ?Z.mul_0_r; try (cbn; lia).
  all: destruct (Z.eqb_spec (Z.abs runs) 0) as [R|R]; [left; lia|].
  all: destruct (Z.ltb_spec 0 o); destruct (Z.ltb_spec 0 t); destruct (Z.ltb_spec 0 h); destruct (Z.ltb_spec 0 ng);
    cbn [orb andb negb pl_runs pl_nocuts pl_vpcs pl_gmics];
    repeat match goal with |- _ /\ _ => split end; intuition (try lia; try congruence; try discriminate).
Qed.
Example runs_planned_example : bb_plan (-3) 111 16 5 2 = Some {| pl_runs := 3; pl_nocuts := true; pl_vpcs := true; pl_gmics := true |} /\
  bb_plan 3 111 16 0 2 = None.
Proof. split; reflexivity. Qed.

(** The number of cuts reported for the runs with all cuts counts the VPCs even when the mode asks
    for Gomory cuts only and they are not added. *)
Theorem all_cuts_number_refuted : exists p, bb_plan 1 100 16 5 2 = Some p /\
  forall vpcs gmics : list nat, length vpcs = 5%nat -> length gmics = 2%nat ->
    length (all_cuts p vpcs gmics) = 2%nat /\ all_cuts_number vpcs gmics = 7%Z.
Proof.
  exists {| pl_runs := 1; pl_nocuts := false; pl_vpcs := false; pl_gmics := true |}. split; [vm_compute; reflexivity|].
  intros vpcs gmics V G. unfold all_cuts, all_cuts_number. cbn [pl_vpcs pl_gmics app].
  rewrite G, V. split; reflexivity.
Qed.

(** The strings with all runs: the entries in order, separated by ";" (for a conversion that never
    prints nothing, and strings that were empty before). *)
Theorem entries_joined : forall print runs, (forall i, print i <> []) ->
  entries print [] runs = join (txt ";") (map print runs).
Proof.
  intros print runs NE. unfold entries.
  assert (G : forall l s, s <> [] -> fold_left (add_entry print) l s = s ++ fold_right (fun t r => txt ";" ++ t ++ r) [] (map print l)).
  { induction l as [|i l IH]; intros s N; cbn [fold_left map fold_right]; [symmetry; apply app_nil_r|].
    rewrite IH by (unfold add_entry; destruct s; [congruence|discriminate]).
    unfold add_entry. destruct s as [|c s]; [congruence|]. repeat (rewrite <- ?app_assoc; cbn [app]). reflexivity. }
  destruct runs as [|r runs]; [reflexivity|]. cbn [fold_left map].
  change (add_entry print [] r) with (print r). rewrite (G runs (print r) (NE r)).
  generalize (print r). induction runs as [|r2 runs IH]; intros t; cbn [map fold_right]; [cbn; apply app_nil_r|].
  cbn [join] in *. rewrite <- IH. reflexivity.
Qed.
Example entries_example : entries (fun i => if (bb_nodes i =? 4)%Z then txt "4" else txt "9") [] [ex_run 10 9 2 4; ex_run 12 10 4 9] = txt "4;9".
Proof. reflexivity. Qed.

Print Assumptions best_over_runs.
Print Assumptions first_and_all_runs.
Print Assumptions average_over_runs.
Print Assumptions average_reused_refuted.
Print Assumptions runs_planned.
Print Assumptions all_cuts_number_refuted.
Print Assumptions entries_joined.
