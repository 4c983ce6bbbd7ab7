(** C05: a split disjunction contains every integer point of the problem, cuts off the current
    fractional solution, and its two terms are disjoint. *)
From Verif Require Import Prelude Model.Tolerance Model.LP Model.Disjunction Spec.LPSpec Spec.DisjSpec
  Proofs.ToleranceP.

(** Contract of the solver: "infeasible" is only answered when that side has no point. *)
Definition answers_sound (P : lp) (x : nat -> Q) (ans : nat -> bool -> branchans) : Prop :=
  forall col, (ans col false = BInfeasible -> forall y, feasible P y -> ~ y col <= inject_Z (Qfloor (x col))) /\
              (ans col true = BInfeasible -> forall y, feasible P y -> ~ inject_Z (Qceiling (x col)) <= y col).

(** A disjunction object that has just been created. *)
Definition fresh_disj (d : disj) : Prop := d_terms d = [] /\ d_num_terms d = O /\ d_common d = [] /\ d_common_ineqs d = [].

Lemma int_side (v y : Q) (z : Z) : y == inject_Z z -> y <= inject_Z (Qfloor v) \/ inject_Z (Qfloor v + 1) <= y.
Proof.
  intro E. destruct (Z_le_gt_dec z (Qfloor v)) as [H|H].
  - left. rewrite E. rewrite <- Zle_Qle. exact H.
  - right. rewrite E. rewrite <- Zle_Qle. lia.
Qed.
Lemma ceil_floor v : ~ v == inject_Z (Qfloor v) -> Qceiling v = (Qfloor v + 1)%Z.
Proof.
  intro N. pose proof (Qfloor_le v) as F1. pose proof (Qlt_floor v) as F2.
  pose proof (Qle_ceiling v) as C1. pose proof (Qceiling_lt v) as C2.
  assert (A : (Qfloor v < Qceiling v)%Z).
  { rewrite Zlt_Qlt. destruct (Qlt_le_dec (inject_Z (Qfloor v)) v) as [L|L]; [lra|]. exfalso. apply N. lra. }
  assert (B : (Qceiling v - 1 < Qfloor v + 1)%Z) by (rewrite Zlt_Qlt; lra).
  lia.
Qed.

Section Split.
Variables (AWAY : Q) (P : lp) (isint : nat -> bool) (x : nat -> Q) (ans : nat -> bool -> branchans).
Hypothesis HA : 0 < AWAY.
Hypothesis Hans : answers_sound P x ans.
Definition int_points (y : nat -> Q) : Prop := feasible P y /\ integral isint (ncols P) y.

(** State while no split has been accepted. *)
Definition pending (d : disj) : Prop :=
  d_terms d = [] /\ d_num_terms d = O /\ d_common_ineqs d = [] /\ forall y, int_points y -> sat_common d y.

Definition is_split (d : disj) (col : nat) : Prop :=
  exists o1 o2, ans col false = BOptimal o1 /\ ans col true = BOptimal o2 /\
  d_terms d = [ {| td_obj := Some o1; td_changes := [{| bc_var := col; bc_bound := 1; bc_val := inject_Z (Qfloor (x col)) |}];
                   td_feasible := true; td_ineqs := [] |};
                {| td_obj := Some o2; td_changes := [{| bc_var := col; bc_bound := 0; bc_val := inject_Z (Qceiling (x col)) |}];
                   td_feasible := true; td_ineqs := [] |} ].

Lemma fractional col : isVal (x col) (inject_Z (Qfloor (x col))) AWAY || isVal (x col) (inject_Z (Qceiling (x col))) AWAY = false ->
  inject_Z (Qfloor (x col)) + AWAY <= x col /\ x col + AWAY <= inject_Z (Qceiling (x col)) /\
  Qceiling (x col) = (Qfloor (x col) + 1)%Z.
Proof.
  intro H. apply orb_false_iff in H. destruct H as [H1 H2].
  assert (N1 : AWAY <= Qabs (x col - inject_Z (Qfloor (x col)))) by (apply Qnot_lt_le; intro L; apply isVal_iff in L; congruence).
  assert (N2 : AWAY <= Qabs (x col - inject_Z (Qceiling (x col)))) by (apply Qnot_lt_le; intro L; apply isVal_iff in L; congruence).
  pose proof (Qfloor_le (x col)). pose proof (Qle_ceiling (x col)).
  rewrite Qabs_pos in N1 by lra. rewrite Qabs_neg in N2 by lra.
  split; [lra|]. split; [lra|]. apply ceil_floor. lra.
Qed.

Lemma checkVar_spec d col : pending d -> (col < ncols P)%nat ->
  match checkVar AWAY isint x ans d col with
  | None => True
  | Some (true, d') => isint col = true /\ d_var d' = Some col /\ is_split d' col /\ d_num_terms d' = 2%nat /\
      d_common_ineqs d' = [] /\ (forall y, int_points y -> sat_common d' y) /\
      inject_Z (Qfloor (x col)) + AWAY <= x col /\ x col + AWAY <= inject_Z (Qceiling (x col)) /\
      Qceiling (x col) = (Qfloor (x col) + 1)%Z
  | Some (false, d') => pending d' /\ d_var d' = d_var d
  end.
Proof.
  intros (P1 & P2 & P3 & P4) Hc. unfold checkVar. cbv zeta.
  destruct (isint col) eqn:HI; [|exact I]. cbn [negb].
  destruct (isVal (x col) (inject_Z (Qfloor (x col))) AWAY || isVal (x col) (inject_Z (Qceiling (x col))) AWAY) eqn:FR; [exact I|].
  destruct (fractional col FR) as (F1 & F2 & F3).
  assert (Side : forall y, int_points y -> y col <= inject_Z (Qfloor (x col)) \/ inject_Z (Qceiling (x col)) <= y col).
  { intros y [_ Y]. destruct (Y col Hc HI) as [z Z]. rewrite F3. apply (int_side (x col) (y col) z Z). }
  destruct (Hans col) as [A1 A2].
  assert (Fix : forall d1 c, d_num_terms d1 = 1%nat -> d_common d1 = d_common d -> d_common_ineqs d1 = [] ->
     (forall y, int_points y -> sat_change c y) ->
     pending (sd_fix d1 c)).
  { intros d1 c D1 D2 D3 S. unfold pending, sd_fix. cbn [d_terms d_num_terms d_common_ineqs]. rewrite D1. cbn.
    split; [reflexivity|]. split; [reflexivity|]. split; [exact D3|]. intros y Hy. destruct (P4 y Hy) as [S1 S2].
    split; cbn [d_common d_common_ineqs].
    - rewrite D2. intros c' H. apply in_app_or in H. destruct H as [H|[<-|[]]]; [apply S1, H|apply S, Hy].
    - rewrite D3. intros ? []. }
  destruct (ans col false) as [o1| |] eqn:E1; destruct (ans col true) as [o2| |] eqn:E2; try exact I.
  - split; [reflexivity|]. split; [reflexivity|]. split.
    { exists o1, o2. split; [exact E1|]. split; [exact E2|]. cbn. rewrite P1. reflexivity. }
    split; [cbn; rewrite P2; reflexivity|]. split; [exact P3|]. split; [exact P4|]. split; [exact F1|]. split; [exact F2|exact F3].
  - split; [|reflexivity]. apply Fix; try (cbn; rewrite ?P2; first [reflexivity|exact P3]).
    intros y Hy. unfold sat_change. cbn. destruct (Side y Hy) as [S|S]; [exact S|]. exfalso. exact (A2 eq_refl y (proj1 Hy) S).
  - split; [|reflexivity]. apply Fix; try (cbn; rewrite ?P2; first [reflexivity|exact P3]).
    intros y Hy. unfold sat_change. cbn. destruct (Side y Hy) as [S|S]; [|exact S]. exfalso. exact (A1 eq_refl y (proj1 Hy) S).
Qed.

Lemma split_loop_spec order : forall d, pending d -> (forall c, In c order -> (c < ncols P)%nat) -> forall e d',
  split_loop AWAY isint x ans order d = Some (e, d') ->
  (e = DUnknown /\ pending d') \/
  (e = DSuccess /\ exists col, In col order /\ isint col = true /\ d_var d' = Some col /\ is_split d' col /\ d_num_terms d' = 2%nat /\
      d_common_ineqs d' = [] /\ (forall y, int_points y -> sat_common d' y) /\
      inject_Z (Qfloor (x col)) + AWAY <= x col /\ x col + AWAY <= inject_Z (Qceiling (x col)) /\
      Qceiling (x col) = (Qfloor (x col) + 1)%Z).
Proof.
  induction order as [|c r IH]; intros d Hp Hr e d' H; cbn [split_loop] in H.
  - inversion H; subst. left. split; [reflexivity|exact Hp].
  - pose proof (checkVar_spec d c Hp (Hr c (or_introl eq_refl))) as S.
    destruct (checkVar AWAY isint x ans d c) as [[[|] d1]|]; [| |discriminate].
    + inversion H; subst. right. split; [reflexivity|]. exists c. split; [left; reflexivity|exact S].
    + destruct (IH d1 (proj1 S) (fun c' H' => Hr c' (or_intror H')) e d' H) as [L|[L1 (col & L2 & L3)]]; [left; exact L|].
      right. split; [exact L1|]. exists col. split; [right; exact L2|exact L3].
Qed.
End Split.

(** Success: the object holds the split of one integer variable, which contains every integer point and
    excludes the current solution. *)
Theorem split_covers :
  forall AWAY P isint x ans order d d',
  0 < AWAY -> answers_sound P x ans -> fresh_disj d ->
  (forall c, In c order -> (c < ncols P)%nat) -> (forall v, d_var d = Some v -> (v < ncols P)%nat) ->
  split_prepare AWAY isint x ans order d = Some (DSuccess, d') ->
  exists col t1 t2, d_var d' = Some col /\ isint col = true /\ (d_var d = Some col \/ (d_var d = None /\ In col order)) /\
    d_terms d' = [t1; t2] /\ d_num_terms d' = 2%nat /\
    (forall y, in_term t1 y <-> y col <= inject_Z (Qfloor (x col))) /\
    (forall y, in_term t2 y <-> inject_Z (Qfloor (x col)) + 1 <= y col) /\
    (forall y, ~ (in_term t1 y /\ in_term t2 y)) /\
    ~ in_term t1 x /\ ~ in_term t2 x /\
    (forall y, feasible P y -> integral isint (ncols P) y -> in_disj d' y).
Proof.
  intros AWAY P isint x ans order d d' HA Hans (D1 & D2 & D3 & D4) Hord Hv H.
  assert (Hp : pending P isint d).
  { split; [exact D1|]. split; [exact D2|]. split; [exact D4|]. intros y _. split; [rewrite D3|rewrite D4]; intros ? []. }
  assert (S : exists col, (d_var d = Some col \/ (d_var d = None /\ In col order)) /\ (col < ncols P)%nat /\
      isint col = true /\ d_var d' = Some col /\ is_split x ans d' col /\ d_num_terms d' = 2%nat /\
      d_common_ineqs d' = [] /\ (forall y, int_points P isint y -> sat_common d' y) /\
      inject_Z (Qfloor (x col)) + AWAY <= x col /\ x col + AWAY <= inject_Z (Qceiling (x col)) /\
      Qceiling (x col) = (Qfloor (x col) + 1)%Z).
  { unfold split_prepare in H. destruct (d_var d) as [v|] eqn:V.
    - pose proof (checkVar_spec AWAY P isint x ans HA Hans d v Hp (Hv v eq_refl)) as S.
      destruct (checkVar AWAY isint x ans d v) as [[[|] d1]|]; [| |discriminate]; inversion H; subst.
      exists v. split; [left; reflexivity|]. split; [apply Hv; reflexivity|exact S].
    - destruct order as [|c r]; [inversion H|].
      destruct (split_loop_spec AWAY P isint x ans HA Hans (c :: r) d Hp Hord _ _ H) as [[L _]|[_ (col & L1 & L2)]]; [discriminate|].
      exists col. split; [right; split; [reflexivity|exact L1]|]. split; [apply Hord, L1|exact L2]. }
  destruct S as (col & S0 & Sc & S1 & S2 & (o1 & o2 & S3 & S4 & S5) & S6 & S7 & S8 & S9 & S10 & S11).
  assert (T1 : forall o y, in_term {| td_obj := o; td_changes := [{| bc_var := col; bc_bound := 1; bc_val := inject_Z (Qfloor (x col)) |}];
                   td_feasible := true; td_ineqs := [] |} y <-> y col <= inject_Z (Qfloor (x col))).
  { intros o y. unfold in_term. cbn [td_changes td_ineqs]. split.
    - intros [A _]. exact (A _ (or_introl eq_refl)).
    - intro A. split; [intros c [<-|[]]; exact A|intros ? []]. }
  assert (T2 : forall o y, in_term {| td_obj := o; td_changes := [{| bc_var := col; bc_bound := 0; bc_val := inject_Z (Qceiling (x col)) |}];
                   td_feasible := true; td_ineqs := [] |} y <-> inject_Z (Qfloor (x col)) + 1 <= y col).
  { intros o y. unfold in_term. cbn [td_changes td_ineqs].
    assert (E : inject_Z (Qceiling (x col)) == inject_Z (Qfloor (x col)) + 1) by (rewrite S11, inject_Z_plus; reflexivity).
    rewrite <- E. split.
    - intros [A _]. exact (A _ (or_introl eq_refl)).
    - intro A. split; [intros c [<-|[]]; exact A|intros ? []]. }
  exists col. do 2 eexists. split; [exact S2|]. split; [exact S1|]. split; [exact S0|]. split; [exact S5|]. split; [exact S6|].
  split; [apply T1|]. split; [apply T2|]. rewrite S11, inject_Z_plus in S10. change (inject_Z 1) with 1 in S10.
  split; [intros y; rewrite T1, T2; lra|].
  split; [rewrite T1; lra|]. split; [rewrite T2; lra|].
  intros y Fy Iy. split; [apply S8; split; assumption|].
  destruct (Iy col Sc S1) as [z Z]. rewrite S5. destruct (int_side (x col) (y col) z Z) as [A|A].
  - eexists. split; [left; reflexivity|]. apply T1. exact A.
  - eexists. split; [right; left; reflexivity|]. apply T2. rewrite inject_Z_plus in A. exact A.
Qed.
Print Assumptions split_covers.

(** Otherwise no terms are left, and the bound changes collected on the way hold at every integer point. *)
Theorem split_failure_keeps_points :
  forall AWAY P isint x ans order d e d',
  0 < AWAY -> answers_sound P x ans -> fresh_disj d ->
  (forall c, In c order -> (c < ncols P)%nat) -> (forall v, d_var d = Some v -> (v < ncols P)%nat) ->
  split_prepare AWAY isint x ans order d = Some (e, d') -> e <> DSuccess ->
  d_terms d' = [] /\ d_num_terms d' = O /\
  (forall y, feasible P y -> integral isint (ncols P) y -> sat_common d' y).
Proof.
  intros AWAY P isint x ans order d e d' HA Hans (D1 & D2 & D3 & D4) Hord Hv H NE.
  assert (Hp : pending P isint d).
  { split; [exact D1|]. split; [exact D2|]. split; [exact D4|]. intros y _. split; [rewrite D3|rewrite D4]; intros ? []. }
  assert (S : pending P isint d').
  { unfold split_prepare in H. destruct (d_var d) as [v|] eqn:V.
    - pose proof (checkVar_spec AWAY P isint x ans HA Hans d v Hp (Hv v eq_refl)) as S.
      destruct (checkVar AWAY isint x ans d v) as [[[|] d1]|]; [| |discriminate]; inversion H; subst; [congruence|apply S].
    - destruct order as [|c r]; [inversion H; subst; exact Hp|].
      destruct (split_loop_spec AWAY P isint x ans HA Hans (c :: r) d Hp Hord _ _ H) as [[_ L]|[L _]]; [exact L|congruence]. }
  destruct S as (S1 & S2 & _ & S3). split; [exact S1|]. split; [exact S2|]. intros y Fy Iy. apply S3. split; assumption.
Qed.
Print Assumptions split_failure_keeps_points.

(** REFUTED: when every candidate has an infeasible side the result is "unknown", not "no disjunction". *)
Theorem no_split_reported_refuted :
  exists (AWAY : Q) (isint : nat -> bool) (x : nat -> Q) (ans : nat -> bool -> branchans) (order : list nat) (d d' : disj), fresh_disj d /\ order <> [] /\
    split_prepare AWAY isint x ans order d = Some (DUnknown, d') /\ d_terms d' = [].
Proof.
  exists (1#1000), (fun _ => true), (fun _ => 1#2), (fun (_ : nat) (up : bool) => if up then BOptimal 1 else BInfeasible), [0%nat], disj_new.
  eexists. split; [repeat split|]. split; [discriminate|]. split; reflexivity.
Qed.
Print Assumptions no_split_reported_refuted.

(** REFUTED: preparing the same object twice appends a second pair of terms (they are then not disjoint,
    and the number of terms is 4). *)
Theorem prepare_twice_refuted :
  exists AWAY isint x ans d d1 d2 t t' y, fresh_disj d /\
    split_prepare AWAY isint x ans [0%nat] d = Some (DSuccess, d1) /\
    split_prepare AWAY isint x ans [0%nat] d1 = Some (DSuccess, d2) /\
    d_num_terms d2 = 4%nat /\ nth_error (d_terms d2) 0 = Some t /\ nth_error (d_terms d2) 2 = Some t' /\
    in_term t y /\ in_term t' y.
Proof.
  exists (1#1000), (fun _ => true), (fun _ => 1#2), (fun (_ : nat) (up : bool) => BOptimal 1), disj_new.
  do 4 eexists. exists (fun _ => 0).
  split; [repeat split|]. split; [reflexivity|]. split; [reflexivity|]. split; [reflexivity|].
  split; [reflexivity|]. split; [reflexivity|].
  split; (split; [intros c [<-|[]]; vm_compute; discriminate|intros ? []]).
Qed.
Print Assumptions prepare_twice_refuted.

(** Hypotheses are met: two fractional variables, the first with an infeasible down side. *)
Definition exS : lp := {| ncols := 2; nrows := 1; clo := fun _ => Some 0; cup := fun _ => Some 3;
  rows := fun _ => {| rcoef := [(0%nat,2)]; rlo := Some 1; rup := None |}; obj := fun _ => 1 |}.
Definition exSx : nat -> Q := fun j => if Nat.eqb j 0 then 1#2 else 3#2.
Definition exSans : nat -> bool -> branchans := fun j up => if Nat.eqb j 0 && negb up then BInfeasible else BOptimal 1.
Example split_example :
  answers_sound exS exSx exSans /\ fresh_disj disj_new /\
  exists d', split_prepare (1#1000) (fun _ => true) exSx exSans [0;1]%nat disj_new = Some (DSuccess, d') /\
    d_var d' = Some 1%nat /\ d_common d' = [{| bc_var := 0; bc_bound := 0; bc_val := 1 |}].
Proof.
  split; [|split; [repeat split|]].
  - intros col. unfold exSans. split; intro H; [|destruct (Nat.eqb col 0); discriminate].
    destruct (Nat.eqb_spec col 0) as [E|E]; [|discriminate]. subst col. intros y [_ R] L.
    specialize (R 0%nat ltac:(cbn; lia)). destruct R as [R _]. cbn [exS rows rcoef rlo above] in R.
    rewrite pdot_cons, pdot_nil in R. cbn [fst snd] in R. change (inject_Z (Qfloor (exSx 0%nat))) with 0 in L. lra.
  - eexists. split; [reflexivity|]. split; reflexivity.
Qed.

(** * Which variable is chosen when none is given. *)
From Coq Require Import Permutation Sorted.
(** At least [AWAY] away from every integer. *)
Definition away (AWAY v : Q) : Prop := forall z : Z, AWAY <= Qabs (v - inject_Z z).
(** Distance from the nearest integer. *)
Definition is_dist (v r : Q) : Prop := (exists z : Z, r == Qabs (v - inject_Z z)) /\ forall z : Z, r <= Qabs (v - inject_Z z).
Lemma frac_dist v : is_dist v (fracPart v).
Proof.
  pose proof (Qfloor_le v) as F1. pose proof (Qlt_floor v) as F2. pose proof (Qle_ceiling v) as C1. pose proof (Qceiling_lt v) as C2.
  assert (R : fracPart v == Qabs (v - inject_Z (Qfloor v)) \/ fracPart v == Qabs (v - inject_Z (Qceiling v))).
  { unfold fracPart. cbv zeta. destruct (Qltb _ _); [right; rewrite Qabs_neg by lra; lra|left; rewrite Qabs_pos by lra; lra]. }
  assert (LF : fracPart v <= v - inject_Z (Qfloor v) /\ fracPart v <= inject_Z (Qceiling v) - v).
  { unfold fracPart. cbv zeta. destruct (Qltb_reflect (inject_Z (Qceiling v) - v) (v - inject_Z (Qfloor v))); split; lra. }
  split; [destruct R as [R|R]; [exists (Qfloor v)|exists (Qceiling v)]; exact R|]. intro z. destruct LF as [L1 L2].
  destruct (Z_le_gt_dec z (Qfloor v)) as [A|A].
  - assert (B : inject_Z z <= inject_Z (Qfloor v)) by (rewrite <- Zle_Qle; exact A). rewrite Qabs_pos by lra. lra.
  - assert (Z1 : (Qceiling v <= z)%Z).
    { destruct (Z_le_gt_dec (Qceiling v) z) as [X|X]; [exact X|]. exfalso. assert (Y : (Qfloor v + 1 <= z)%Z) by lia. rewrite Zle_Qle in Y.
      assert (W : (z <= Qceiling v - 1)%Z) by lia. rewrite Zle_Qle in W. lra. }
    rewrite Zle_Qle in Z1. rewrite Qabs_neg by lra. lra.
Qed.
Lemma candidate_iff AWAY isint x n c : In c (split_candidates AWAY isint x n) <-> (c < n)%nat /\ isint c = true /\ away AWAY (x c).
Proof.
  unfold split_candidates. rewrite filter_In, in_seq, andb_true_iff, negb_true_iff. destruct (frac_dist (x c)) as [[z E] L].
  assert (P : 0 <= fracPart (x c)) by (rewrite E; apply Qabs_nonneg).
  assert (V : isVal (fracPart (x c)) 0 AWAY = false <-> away AWAY (x c)).
  { split.
    - intros H y. assert (N : AWAY <= Qabs (fracPart (x c) - 0)) by (apply Qnot_lt_le; intro X; apply isVal_iff in X; congruence). rewrite Qabs_pos in N by lra. specialize (L y). lra.
    - intro H. destruct (isVal (fracPart (x c)) 0 AWAY) eqn:F; [|reflexivity]. exfalso. apply isVal_iff in F. rewrite Qabs_pos in F by lra. specialize (H z). lra. }
  rewrite V. split; [intros [A [B C]]; split; [lia|split; [exact B|exact C]]|intros (A & B & C); split; [lia|split; [exact B|exact C]]].
Qed.
(** Both sides of [c] have an optimal solution; exactly one has none. *)
Definition splits (ans : nat -> bool -> branchans) (c : nat) : Prop := exists a b, ans c false = BOptimal a /\ ans c true = BOptimal b.
Definition one_sided (ans : nat -> bool -> branchans) (c : nat) : Prop :=
  exists a, (ans c false = BOptimal a /\ ans c true = BInfeasible) \/ (ans c false = BInfeasible /\ ans c true = BOptimal a).
(** The program ends when the solver fails on a side or finds both without a solution. *)
Definition hopeless (ans : nat -> bool -> branchans) (c : nat) : Prop :=
  ans c false = BOther \/ ans c true = BOther \/ (ans c false = BInfeasible /\ ans c true = BInfeasible).
Lemma check_candidate AWAY isint x ans s c : isint c = true -> away AWAY (x c) ->
  match checkVar AWAY isint x ans s c with
  | None => hopeless ans c
  | Some (true, s') => splits ans c /\ d_var s' = Some c
  | Some (false, s') => one_sided ans c
  end.
Proof.
  intros I A. unfold checkVar. cbv zeta. rewrite I. cbn [negb].
  assert (N : isVal (x c) (inject_Z (Qfloor (x c))) AWAY || isVal (x c) (inject_Z (Qceiling (x c))) AWAY = false).
  { apply orb_false_iff. split.
    - destruct (isVal (x c) (inject_Z (Qfloor (x c))) AWAY) eqn:F; [|reflexivity]. exfalso. apply isVal_iff in F. specialize (A (Qfloor (x c))). lra.
    - destruct (isVal (x c) (inject_Z (Qceiling (x c))) AWAY) eqn:F; [|reflexivity]. exfalso. apply isVal_iff in F. specialize (A (Qceiling (x c))). lra. }
  rewrite N. unfold hopeless, splits, one_sided. destruct (ans c false) as [a| |], (ans c true) as [b| |]; try (left; reflexivity); try (right; left; reflexivity).
  - split; [exists a, b; split; reflexivity|reflexivity].
  - exists a. left. split; reflexivity.
  - exists b. right. split; reflexivity.
  - right. right. split; reflexivity.
Qed.
Lemma loop_choice AWAY isint x ans : forall order, (forall c, In c order -> isint c = true /\ away AWAY (x c)) ->
  StronglySorted (fun i j => fracPart (x j) <= fracPart (x i)) order -> forall s,
  match split_loop AWAY isint x ans order s with
  | None => exists c, In c order /\ hopeless ans c
  | Some (DSuccess, s') => exists c, In c order /\ d_var s' = Some c /\ splits ans c /\ forall w, In w order -> splits ans w -> fracPart (x w) <= fracPart (x c)
  | Some (DNoDisjunction, _) => False
  | Some (DUnknown, _) => forall c, In c order -> one_sided ans c
  end.
Proof.
  induction order as [|c r IH]; intros H S s; cbn [split_loop]; [intros c []|].
  destruct (H c (or_introl eq_refl)) as [I A]. pose proof (check_candidate AWAY isint x ans s c I A) as C. inversion S as [|? ? S1 S2]; subst.
  destruct (checkVar AWAY isint x ans s c) as [[[|] s']|].
  - destruct C as [C1 C2]. exists c. split; [left; reflexivity|]. split; [exact C2|]. split; [exact C1|]. intros w [W|W] _; [subst w; apply Qle_refl|]. rewrite Forall_forall in S2. exact (S2 w W).
  - specialize (IH (fun d D => H d (or_intror D)) S1 s'). destruct (split_loop AWAY isint x ans r s') as [[[| |] s2]|].
    + destruct IH as (d & D1 & D2 & D3 & D4). exists d. split; [right; exact D1|]. split; [exact D2|]. split; [exact D3|]. intros w [W|W] SW; [|exact (D4 w W SW)].
      subst w. exfalso. destruct C as (a & [[C1 C2]|[C1 C2]]), SW as (a' & b' & W1 & W2); congruence.
    + exact IH.
    + intros d [D|D]; [subst d; exact C|exact (IH d D)].
    + destruct IH as (d & D1 & D2). exists d. split; [right; exact D1|exact D2].
  - exists c. split; [left; reflexivity|exact C].
Qed.
(** Without a variable given, the split is on a variable of largest distance to the integers among the integer variables that are at
    least [AWAY] fractional and have a solution on both sides; "no disjunction" exactly when no integer variable is fractional;
    the program never ends because a variable it chose itself is not integer or not fractional. *)
Theorem split_choice AWAY isint x ans n order d : d_var d = None ->
  Permutation (split_candidates AWAY isint x n) order ->
  StronglySorted (fun i j => fracPart (x j) <= fracPart (x i)) order ->
  let cand c := (c < n)%nat /\ isint c = true /\ away AWAY (x c) in
  match split_prepare AWAY isint x ans order d with
  | None => exists c, cand c /\ hopeless ans c
  | Some (DSuccess, d') => exists c, cand c /\ d_var d' = Some c /\ splits ans c /\
      forall w q r, cand w -> splits ans w -> is_dist (x w) q -> is_dist (x c) r -> q <= r
  | Some (DNoDisjunction, d') => d' = d /\ forall c, ~ cand c
  | Some (DUnknown, _) => (exists c, cand c) /\ forall c, cand c -> one_sided ans c
  end.
Proof.
  intros V P S cand. assert (CI : forall c, In c order <-> cand c).
  { intro c. transitivity (In c (split_candidates AWAY isint x n)); [|apply candidate_iff]. split; intro H; [exact (Permutation_in _ (Permutation_sym P) H)|exact (Permutation_in _ P H)]. }
  unfold split_prepare. rewrite V. destruct order as [|c0 r] eqn:EO.
  - split; [reflexivity|]. intros c C. apply CI in C. exact C.
  - clear EO. assert (NE : exists c, cand c) by (exists c0; apply CI; left; reflexivity).
    pose proof (loop_choice AWAY isint x ans (c0 :: r) (fun c H => proj2 (proj1 (CI c) H)) S d) as L.
    destruct (split_loop AWAY isint x ans (c0 :: r) d) as [[[| |] s']|].
    + destruct L as (c & C1 & C2 & C3 & C4). exists c. split; [apply CI; exact C1|]. split; [exact C2|]. split; [exact C3|]. intros w q t W SW DW DC.
      specialize (C4 w (proj2 (CI w) W) SW). destruct (frac_dist (x w)) as [[z1 E1] _], (frac_dist (x c)) as [_ M2]. destruct DW as [_ DW], DC as [[z2 E2] _]. specialize (DW z1). specialize (M2 z2). lra.
    + destruct L.
    + split; [exact NE|]. intros c C. apply L, CI, C.
    + destruct L as (c & C1 & C2). exists c. split; [apply CI; exact C1|exact C2].
Qed.
Print Assumptions split_choice.
(** Three integer variables at 1/4, 1/2, 1/3 and one continuous; the second has one side only, the third is chosen. *)
Definition chX (c : nat) : Q := match c with 0%nat => 1#4 | 1%nat => 1#2 | 2%nat => 1#3 | _ => 1#2 end.
Definition chans (c : nat) (up : bool) : branchans := match c with 1%nat => if up then BInfeasible else BOptimal 1 | _ => BOptimal 1 end.
Example choice_example : split_candidates (1#1000) (fun c => Nat.ltb c 3) chX 4 = [0; 1; 2]%nat /\ Permutation [0; 1; 2]%nat [1; 2; 0]%nat /\
  StronglySorted (fun i j => fracPart (chX j) <= fracPart (chX i)) [1; 2; 0]%nat /\
  option_map (fun p => (fst p, d_var (snd p))) (split_prepare (1#1000) (fun c => Nat.ltb c 3) chX chans [1; 2; 0]%nat disj_new) = Some (DSuccess, Some 2%nat).
Proof.
  split; [vm_compute; reflexivity|]. split; [exact (Permutation_cons_append [1; 2]%nat 0%nat)|]. split; [|vm_compute; reflexivity].
  repeat (constructor; [|repeat (constructor; [vm_compute; discriminate|]); constructor]). constructor.
Qed.
