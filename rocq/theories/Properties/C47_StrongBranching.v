(** C47: strong branching picks the best candidate. *)
From Verif Require Import Prelude Model.StrongBranch.

(** [x] at position [length l1] of [L] is the first maximal element for "beats". *)
Definition first_max {A} (beats : A -> A -> Prop) (L l1 : list A) (x : A) (l2 : list A) : Prop :=
  L = l1 ++ x :: l2 /\ (forall d, In d l1 -> beats x d) /\ (forall d, In d l2 -> ~ beats d x).

Section FM.
Context {A : Type} (beats : A -> A -> Prop).
Hypothesis trans : forall a b c, beats a b -> beats b c -> beats a c.
Hypothesis neg : forall a b c, beats a b -> ~ beats c b -> beats a c.
Lemma fm_one x : first_max beats [x] [] x [].
Proof. repeat split; intros ? []. Qed.
Lemma fm_new L l1 o l2 x : first_max beats L l1 o l2 -> beats x o -> first_max beats (L ++ [x]) L x [].
Proof.
  intros (-> & H1 & H2) Bx. split; [reflexivity|]. split; [|intros ? []]. intros d Hd. apply in_app_or in Hd.
  destruct Hd as [Hd|[<-|Hd]]; [exact (trans _ _ _ Bx (H1 d Hd))|exact Bx|exact (neg _ _ _ Bx (H2 d Hd))].
Qed.
Lemma fm_old L l1 o l2 x : first_max beats L l1 o l2 -> ~ beats x o -> first_max beats (L ++ [x]) l1 o (l2 ++ [x]).
Proof.
  intros (-> & H1 & H2) Bx. split; [rewrite <- app_assoc; reflexivity|]. split; [exact H1|]. intros d Hd. apply in_app_or in Hd.
  destruct Hd as [Hd|[<-|[]]]; [exact (H2 d Hd)|exact Bx].
Qed.
End FM.

(** ** Cbc's decision object. *)
(** Merit: the smaller of the two changes; the way: towards the smaller change, unless the user prefers one. *)
Definition merit (c : scand) : Q := Qmn (sc_up c) (sc_dn c).
Definition way_of (c : scand) : Z := if Z.eqb (sc_pref c) 0 then (if Qle_bool (sc_up c) (sc_dn c) then 1 else -1)%Z else sc_pref c.
Definition more_merit (c d : scand) : Prop := merit d < merit c.
Lemma mm_trans a b c : more_merit a b -> more_merit b c -> more_merit a c. Proof. unfold more_merit. intros. lra. Qed.
Lemma mm_neg a b c : more_merit a b -> ~ more_merit c b -> more_merit a c. Proof. unfold more_merit. intros. lra. Qed.
Lemma merit_up c : Qle_bool (sc_up c) (sc_dn c) = true -> merit c == sc_up c.
Proof. intro H. apply Qle_bool_iff in H. unfold merit, Qmn. destruct (Qltb_reflect (sc_up c) (sc_dn c)); lra. Qed.
Lemma merit_dn c : Qle_bool (sc_up c) (sc_dn c) = false -> merit c == sc_dn c.
Proof. intro H. apply Qle_bool_gt in H. unfold merit, Qmn. destruct (Qltb_reflect (sc_up c) (sc_dn c)); lra. Qed.
Lemma bb_step_spec acc i c : bb_step acc (i, c) =
  if Qltb (ba_crit acc) (merit c) then {| ba_crit := merit c; ba_which := Some i; ba_way := if Qle_bool (sc_up c) (sc_dn c) then 1 else -1 |}
  else acc.
Proof.
  unfold bb_step. destruct (Qle_bool (sc_up c) (sc_dn c)) eqn:E.
  - pose proof (merit_up c E) as M. destruct (Qltb_reflect (ba_crit acc) (sc_up c)), (Qltb_reflect (ba_crit acc) (merit c)); try lra; reflexivity.
  - pose proof (merit_dn c E) as M. destruct (Qltb_reflect (ba_crit acc) (sc_dn c)), (Qltb_reflect (ba_crit acc) (merit c)); try lra; reflexivity.
Qed.

(** bestBranch returns the first candidate of largest merit and sets its way. *)
Theorem best_branch : forall cs, (forall c, In c cs -> - inject_Z (10 ^ 50) < merit c) ->
  (cs = [] -> bestBranch cs = None) /\
  (cs <> [] -> exists l1 c l2, first_max more_merit cs l1 c l2 /\ bestBranch cs = Some (length l1, way_of c)).
Proof.
  intros cs H. split; [intros ->; reflexivity|].
  assert (G : let acc := fold_left bb_step (combine (seq 0 (length cs)) cs) {| ba_crit := - inject_Z (10 ^ 50); ba_which := None; ba_way := 0 |} in
     (cs = [] /\ acc = {| ba_crit := - inject_Z (10 ^ 50); ba_which := None; ba_way := 0 |}) \/
     (exists l1 c l2, first_max more_merit cs l1 c l2 /\ ba_crit acc = merit c /\ ba_which acc = Some (length l1) /\
        ba_way acc = if Qle_bool (sc_up c) (sc_dn c) then 1%Z else (-1)%Z)).
  { cbv zeta. induction cs as [|x cs IH] using rev_ind; [left; split; reflexivity|].
    specialize (IH (fun c Hc => H c ltac:(apply in_or_app; left; exact Hc))).
    assert (E : combine (seq 0 (length (cs ++ [x]))) (cs ++ [x]) = combine (seq 0 (length cs)) cs ++ [(length cs, x)]).
    { rewrite app_length. cbn [length]. rewrite seq_app. cbn [seq Nat.add]. generalize 0%nat as a. intro a.
      assert (K : forall l1 l2 : list nat, forall m1 m2 : list scand, length l1 = length m1 -> combine (l1 ++ l2) (m1 ++ m2) = combine l1 m1 ++ combine l2 m2).
      { induction l1 as [|y l1 IHl]; intros l2 [|z m1] m2 L; try discriminate; [reflexivity|]. cbn [app combine]. rewrite IHl by (cbn [length] in L; lia). reflexivity. }
      rewrite K by (rewrite seq_length; reflexivity). reflexivity. }
    rewrite E, fold_left_app. cbn [fold_left]. rewrite bb_step_spec. right.
    pose proof (H x ltac:(apply in_or_app; right; left; reflexivity)) as Hx.
    destruct IH as [[-> ->]|(l1 & c & l2 & F & C & W & Y)].
    - cbn [ba_crit]. destruct (Qltb_reflect (- inject_Z (10 ^ 50)) (merit x)); [|lra]. exists [], x, []. split; [apply fm_one|]. repeat split.
    - rewrite C. destruct (Qltb_reflect (merit c) (merit x)) as [L|L].
      + exists cs, x, []. split; [apply (fm_new _ mm_trans mm_neg _ _ _ _ _ F L)|]. repeat split.
      + exists l1, c, (l2 ++ [x]). split; [apply fm_old; assumption|]. auto. }
  cbv zeta in G. intro NE. unfold bestBranch. destruct G as [[-> _]|(l1 & c & l2 & F & C & W & Y)]; [congruence|].
  exists l1, c, l2. split; [exact F|]. rewrite W. destruct F as (-> & _ & _).
  rewrite nth_error_app2, Nat.sub_diag by lia. cbn [nth_error]. unfold way_of. rewrite Y. reflexivity.
Qed.
Print Assumptions best_branch.

(** Comparing candidates one at a time (betterBranch): Cbc keeps the last candidate for which the answer is
    not 0; [None] when there is none. *)
Fixpoint keep_last (before : bool) (s : bdec) (i : nat) (cs : list scand) (kept : option (nat * Z)) : option (nat * Z) :=
  match cs with
  | [] => kept
  | c :: r => let '(s', w) := betterBranch before s c in keep_last before s' (S i) r (if Z.eqb w 0 then kept else Some (i, w))
  end.
(** The same, keeping the state. *)
Definition kl_step (before : bool) (acc : bdec * nat * option (nat * Z)) (c : scand) : bdec * nat * option (nat * Z) :=
  let '(s, i, k) := acc in let '(s', w) := betterBranch before s c in (s', S i, if Z.eqb w 0 then k else Some (i, w)).
Lemma keep_last_fold before : forall cs s i k, keep_last before s i cs k = snd (fold_left (kl_step before) cs (s, i, k)).
Proof.
  induction cs as [|c r IH]; intros s i k; [reflexivity|]. cbn [keep_last fold_left]. unfold kl_step at 2. destruct (betterBranch before s c) as [s' w]. apply IH.
Qed.

(** Once a solution is known: the first candidate of largest merit (changes are non-negative). *)
Theorem better_branch_after_solution : forall s0 cs, bd_best s0 = false -> (forall c, In c cs -> 0 <= merit c) -> cs <> [] ->
  exists l1 c l2, first_max more_merit cs l1 c l2 /\ keep_last false s0 0 cs None = Some (length l1, way_of c).
Proof.
  intros s0 cs NB H NE. rewrite keep_last_fold.
  assert (ST : forall s c, betterBranch false s c =
    let crit := if bd_best s then bd_crit s else -(1) in
    if Qltb crit (merit c)
    then ({| bd_best := true; bd_crit := merit c; bd_up := sc_up c; bd_nup := sc_nup c; bd_dn := sc_dn c; bd_ndn := sc_ndn c |}, way_of c)
    else (if bd_best s then s else {| bd_best := false; bd_crit := -(1); bd_up := bd_up s; bd_nup := bd_nup s; bd_dn := bd_dn s; bd_ndn := bd_ndn s |}, 0%Z)).
  { intros s c. unfold betterBranch. cbv zeta. set (s1 := if bd_best s then s else _).
    assert (C : bd_crit s1 = if bd_best s then bd_crit s else -(1)) by (unfold s1; destruct (bd_best s); reflexivity). rewrite <- C. fold (merit c).
    unfold way_of. destruct (Qle_bool (sc_up c) (sc_dn c)) eqn:E.
    - pose proof (merit_up c E) as M. destruct (Qltb_reflect (bd_crit s1) (sc_up c)), (Qltb_reflect (bd_crit s1) (merit c)); try lra; reflexivity.
    - pose proof (merit_dn c E) as M. destruct (Qltb_reflect (bd_crit s1) (sc_dn c)), (Qltb_reflect (bd_crit s1) (merit c)); try lra; reflexivity. }
  assert (WN : forall c, way_of c <> 0%Z).
  { intro c. unfold way_of. destruct (Z.eqb_spec (sc_pref c) 0); [destruct (Qle_bool _ _); discriminate|assumption]. }
  assert (G : let acc := fold_left (kl_step false) cs (s0, 0%nat, None) in snd (fst acc) = length cs /\
     ((cs = [] /\ bd_best (fst (fst acc)) = false) \/
      (exists l1 c l2, first_max more_merit cs l1 c l2 /\ bd_best (fst (fst acc)) = true /\ bd_crit (fst (fst acc)) = merit c /\ snd acc = Some (length l1, way_of c)))).
  { clear NE. cbv zeta. induction cs as [|x cs IH] using rev_ind; [split; [reflexivity|left; split; [reflexivity|exact NB]]|].
    specialize (IH (fun c Hc => H c ltac:(apply in_or_app; left; exact Hc))).
    pose proof (H x ltac:(apply in_or_app; right; left; reflexivity)) as Hx.
    rewrite fold_left_app, app_length. cbn [fold_left length]. destruct (fold_left (kl_step false) cs (s0, 0%nat, None)) as [[s i] k].
    cbn [fst snd] in IH. destruct IH as [-> IH]. unfold kl_step. rewrite ST. cbv zeta.
    destruct IH as [[-> B]|(l1 & c & l2 & F & B & C & K)]; rewrite B.
    - destruct (Qltb_reflect (-(1)) (merit x)) as [L|L]; [|lra]. cbn [fst snd]. split; [lia|]. right. exists [], x, [].
      split; [apply fm_one|]. split; [reflexivity|]. split; [reflexivity|]. destruct (Z.eqb_spec (way_of x) 0) as [Z|Z]; [destruct (WN x Z)|reflexivity].
    - rewrite C. destruct (Qltb_reflect (merit c) (merit x)) as [L|L]; cbn [fst snd]; (split; [lia|]); right.
      + exists cs, x, []. split; [apply (fm_new _ mm_trans mm_neg _ _ _ _ _ F L)|]. split; [reflexivity|]. split; [reflexivity|].
        destruct (Z.eqb_spec (way_of x) 0) as [Z|Z]; [destruct (WN x Z)|reflexivity].
      + exists l1, c, (l2 ++ [x]). split; [apply fm_old; assumption|]. auto. }
  cbv zeta in G. destruct G as [_ [[-> _]|(l1 & c & l2 & F & _ & _ & K)]]; [congruence|]. exists l1, c, l2. split; [exact F|exact K].
Qed.
Print Assumptions better_branch_after_solution.

(** Before a solution is known: a candidate with the fewest infeasibilities in its better branch. *)
Definition fewest (c : scand) : Z := Z.min (sc_nup c) (sc_ndn c).
Theorem better_branch_before_solution : forall s0 cs, bd_best s0 = false ->
  (forall c, In c cs -> (0 <= sc_nup c < COIN_INT_MAX)%Z /\ (0 <= sc_ndn c < COIN_INT_MAX)%Z) -> cs <> [] ->
  exists i w c, keep_last true s0 0 cs None = Some (i, w) /\ nth_error cs i = Some c /\ w <> 0%Z /\ forall d, In d cs -> (fewest c <= fewest d)%Z.
Proof.
  intros s0 cs NB H NE. rewrite keep_last_fold.
  assert (ST : forall s c, bd_best s = true \/ (fewest c < COIN_INT_MAX)%Z ->
    let best := if bd_best s then Z.min (bd_nup s) (bd_ndn s) else COIN_INT_MAX in
    let '(s', w) := betterBranch true s c in
    (w = 0%Z -> bd_best s' = bd_best s /\ (bd_best s = true -> s' = s) /\ (best <= fewest c)%Z) /\
    (w <> 0%Z -> bd_best s' = true /\ bd_nup s' = sc_nup c /\ bd_ndn s' = sc_ndn c /\ (fewest c <= best)%Z)).
  { intros s c HB. cbv zeta. unfold betterBranch. cbv zeta. set (s1 := if bd_best s then s else _).
    assert (B : Z.min (bd_nup s1) (bd_ndn s1) = if bd_best s then Z.min (bd_nup s) (bd_ndn s) else COIN_INT_MAX).
    { unfold s1. destruct (bd_best s); reflexivity. }
    rewrite B. set (best := if bd_best s then Z.min (bd_nup s) (bd_ndn s) else COIN_INT_MAX).
    assert (S1 : bd_best s1 = bd_best s /\ (bd_best s = true -> s1 = s)) by (unfold s1; destruct (bd_best s) eqn:EB; split; auto; intro; discriminate).
    set (bw := if (sc_nup c <? sc_ndn c)%Z then _ else _).
    assert (BW : (bw = 0%Z -> (best <= fewest c)%Z) /\ (bw <> 0%Z -> (fewest c <= best)%Z)).
    { unfold bw, fewest. destruct (Z.ltb_spec (sc_nup c) (sc_ndn c)).
      - destruct (Z.ltb_spec (sc_nup c) best); [split; [discriminate|lia]|]. destruct (Z.eqb_spec (sc_nup c) best); [|split; lia].
        destruct (Qltb _ _); split; try discriminate; lia.
      - destruct (Z.ltb_spec (sc_ndn c) (sc_nup c)).
        + destruct (Z.ltb_spec (sc_ndn c) best); [split; [discriminate|lia]|]. destruct (Z.eqb_spec (sc_ndn c) best); [|split; lia].
          destruct (Qltb _ _); split; try discriminate; lia.
        + destruct (Z.ltb_spec (sc_nup c) best); cbn [orb]; [destruct (Qle_bool _ _); split; try discriminate; lia|].
          destruct (Z.eqb_spec (sc_nup c) best); cbn [andb]; [|split; lia]. destruct (Qltb _ _); [destruct (Qle_bool _ _)|]; split; try discriminate; lia. }
    destruct (Z.eqb_spec bw 0) as [Z|Z].
    - split; [|congruence]. intros _. split; [exact (proj1 S1)|]. split; [exact (proj2 S1)|]. apply BW, Z.
    - split; [|intros _; cbn [bd_best bd_nup bd_ndn]; repeat split; apply BW, Z].
      intro W. destruct (Z.eqb_spec (sc_pref c) 0); congruence. }
  assert (G : let acc := fold_left (kl_step true) cs (s0, 0%nat, None) in snd (fst acc) = length cs /\
     ((cs = [] /\ bd_best (fst (fst acc)) = false) \/
      (exists i w c, snd acc = Some (i, w) /\ nth_error cs i = Some c /\ w <> 0%Z /\ (forall d, In d cs -> (fewest c <= fewest d)%Z) /\
         bd_best (fst (fst acc)) = true /\ bd_nup (fst (fst acc)) = sc_nup c /\ bd_ndn (fst (fst acc)) = sc_ndn c))).
  { clear NE. cbv zeta. induction cs as [|x cs IH] using rev_ind; [split; [reflexivity|left; split; [reflexivity|exact NB]]|].
    specialize (IH (fun c Hc => H c ltac:(apply in_or_app; left; exact Hc))).
    pose proof (H x ltac:(apply in_or_app; right; left; reflexivity)) as Hx.
    rewrite fold_left_app, app_length. cbn [fold_left length]. destruct (fold_left (kl_step true) cs (s0, 0%nat, None)) as [[s i] k].
    cbn [fst snd] in IH. destruct IH as [-> IH]. unfold kl_step. pose proof (ST s x) as S1. destruct (betterBranch true s x) as [s' w].
    cbv zeta in S1. destruct IH as [[-> B]|(i & w0 & c & K & N & W & M & B & C1 & C2)]; rewrite B in S1.
    - destruct S1 as [S1 S2]; [right; unfold fewest; lia|]. cbn [fst snd length]. split; [lia|]. right.
      destruct (Z.eqb_spec w 0) as [Z|Z].
      + destruct (S1 Z) as (_ & _ & L). unfold fewest in L. unfold COIN_INT_MAX in *. lia.
      + exists 0%nat, w, x. split; [reflexivity|]. split; [reflexivity|]. split; [exact Z|]. split; [intros d [<-|[]]; lia|].
        destruct (S2 Z) as (T1 & T2 & T3 & _). auto.
    - destruct S1 as [S1 S2]; [left; reflexivity|]. cbn [fst snd]. split; [lia|]. right. rewrite C1, C2 in *. change (Z.min (sc_nup c) (sc_ndn c)) with (fewest c) in *.
      destruct (Z.eqb_spec w 0) as [Z|Z].
      + destruct (S1 Z) as (T1 & T2 & L). rewrite (T2 eq_refl) in *. exists i, w0, c. split; [exact K|].
        split; [rewrite nth_error_app1 by (apply nth_error_Some; congruence); exact N|]. split; [exact W|]. split; [|auto].
        intros d Hd. apply in_app_or in Hd. destruct Hd as [Hd|[<-|[]]]; [exact (M d Hd)|exact L].
      + destruct (S2 Z) as (T1 & T2 & T3 & L). exists (length cs), w, x. split; [reflexivity|].
        split; [rewrite nth_error_app2, Nat.sub_diag by lia; reflexivity|]. split; [exact Z|]. split; [|auto].
        intros d Hd. apply in_app_or in Hd. destruct Hd as [Hd|[<-|[]]]; [specialize (M d Hd)|]; lia. }
  cbv zeta in G. destruct G as [_ [[-> _]|(i & w & c & K & N & W & M & _)]]; [congruence|]. exists i, w, c. auto.
Qed.
Print Assumptions better_branch_before_solution.

(** ** Choosing a variable. *)
(** The documented merit of a candidate: weighted sum of the smaller and the larger change; ties (method not
    0) by the complementary weights. Methods: 0, 1, 3 weigh 0.85 / 0.15; 2, 4 take the smaller change; 5 the
    larger; 6 the smallest column; -m is the opposite of m - 1. *)
Theorem documented_merit : forall col dn up crit,
  (forall m, (m = 0 \/ m = 1 \/ m = 3)%Z -> calculateValue m col dn up false == (85 # 100) * Qmn up dn + (15 # 100) * Qmx up dn /\
     calculateValue m col dn up true == (15 # 100) * Qmn up dn + (85 # 100) * Qmx up dn) /\
  (forall m, (m = 2 \/ m = 4)%Z -> calculateValue m col dn up false == Qmn up dn /\ calculateValue m col dn up true == Qmx up dn) /\
  (calculateValue 5 col dn up false == Qmx up dn /\ calculateValue 5 col dn up true == Qmn up dn) /\
  calculateValue 6 col dn up crit == - inject_Z (Z.of_nat col) /\
  (forall m, (0 <= m)%Z -> m <> 6%Z -> calculateValue (- m - 1) col dn up crit == - calculateValue m col dn up crit).
Proof.
  intros col dn up crit. split; [|split; [|split; [|split]]].
  - intros m [->|[->| ->]]; unfold calculateValue, SAVED_MAXMIN_CRITERION; cbn [Z.eqb Z.ltb Z.compare orb Pos.eqb]; split; cbv zeta; ring.
  - intros m [->| ->]; unfold calculateValue; cbn [Z.eqb Z.ltb Z.compare orb Pos.eqb]; split; cbv zeta; ring.
  - unfold calculateValue; cbn [Z.eqb Z.ltb Z.compare orb Pos.eqb]; split; cbv zeta; ring.
  - reflexivity.
  - intros m Hm N. unfold calculateValue. destruct (Z.eqb_spec m 6); [contradiction|]. destruct (Z.eqb_spec (- m - 1) 6); [lia|].
    destruct (Z.ltb_spec (- m - 1) 0); [|lia]. destruct (Z.ltb_spec m 0); [lia|]. replace (- (- m - 1 + 1))%Z with m by lia. cbv zeta.
    destruct (if crit then _ else _); ring.
Qed.
Print Assumptions documented_merit.

Definition f1 (m : Z) (o : eobj) : Q := calculateValue m (eo_col o) (eo_down o) (eo_up o) false.
Definition f2 (m : Z) (o : eobj) : Q := calculateValue m (eo_col o) (eo_down o) (eo_up o) true.
(** Larger merit, or (method not 0) equal merit and larger second criterion. *)
Definition beats (m : Z) (o d : eobj) : Prop := f1 m d < f1 m o \/ (m <> 0%Z /\ f1 m o == f1 m d /\ f2 m d < f2 m o).
Definition eo_way (o : eobj) : Z := match eo_pref o with Some w => w | None => if Qltb (eo_down o) (eo_up o) then 0%Z else 1%Z end.
Lemma beats_trans m a b c : beats m a b -> beats m b c -> beats m a c.
Proof.
  intros [H|(N & E & L)] [H'|(N' & E' & L')]; [left; lra|left; lra|left; lra|]. right. split; [exact N|]. split; lra.
Qed.
Lemma beats_neg m a b c : beats m a b -> ~ beats m c b -> beats m a c.
Proof.
  intros H N. unfold beats in *. destruct (Qlt_le_dec (f1 m c) (f1 m a)) as [L|L]; [left; exact L|].
  destruct H as [H|(M & E & K)]; [exfalso; apply N; left; lra|].
  destruct (Qlt_le_dec (f1 m b) (f1 m c)) as [G|G]; [exfalso; apply N; left; exact G|]. right. split; [exact M|]. split; [lra|].
  apply Qnot_le_lt. intro Q. apply N. right. split; [exact M|]. split; lra.
Qed.
Definition slot_of (m : Z) (o : eobj) : slot := {| sl_index := Some (eo_index o); sl_way := eo_way o; sl_crit := Some (f1 m o, f2 m o) |}.
Lemma beats_slot m x o : above_crit (f1 m x) (sl_crit (slot_of m o)) || (negb (m =? 0)%Z && ties_above (f1 m x) (f2 m x) (sl_crit (slot_of m o))) = true <-> beats m x o.
Proof.
  cbn [slot_of sl_crit above_crit ties_above]. unfold beats. rewrite orb_true_iff, !andb_true_iff, negb_true_iff, Z.eqb_neq, Qltb_lt, Qeq_bool_iff, Qltb_lt. tauto.
Qed.
(** The two best of a list in the order they come: [best] first maximal, [second] first maximal of the rest. *)
Definition two_best (m : Z) (L : list eobj) (start : chooser) (ch : chooser) : Prop :=
  (L = [] /\ ch = start) \/
  exists l1 o l2, first_max (beats m) L l1 o l2 /\ ch_best ch = slot_of m o /\
    ((l1 ++ l2 = [] /\ ch_second ch = ch_best start) \/
     exists m1 o2 m2, first_max (beats m) (l1 ++ l2) m1 o2 m2 /\ ch_second ch = slot_of m o2).
Lemma process_two_best m start : sl_crit (ch_best start) = None -> forall L,
  two_best m L start (fold_left (fun ch o => fst (processObject m ch o)) L start).
Proof.
  intros NS. induction L as [|x L IH] using rev_ind; [left; split; reflexivity|]. rewrite fold_left_app. cbn [fold_left].
  set (ch := fold_left _ L start) in *. right.
  unfold processObject. cbv zeta. fold (f1 m x). fold (f2 m x). change (match eo_pref x with Some w => w | None => if Qltb (eo_down x) (eo_up x) then 0%Z else 1%Z end) with (eo_way x).
  change {| sl_index := Some (eo_index x); sl_way := eo_way x; sl_crit := Some (f1 m x, f2 m x) |} with (slot_of m x).
  destruct IH as [[-> ->]|(l1 & o & l2 & F & Bo & S2)].
  - rewrite NS. cbn [above_crit orb fst]. exists [], x, []. split; [apply fm_one|]. split; [reflexivity|]. left. split; reflexivity.
  - rewrite Bo. pose proof (beats_slot m x o) as BS. destruct (above_crit (f1 m x) (sl_crit (slot_of m o)) || _) eqn:E1.
    + cbn [fst ch_best ch_second]. exists L, x, []. split; [apply (fm_new _ (beats_trans m) (beats_neg m) _ _ _ _ _ F); apply BS; reflexivity|].
      split; [reflexivity|]. right. rewrite app_nil_r. exists l1, o, l2. split; [exact F|reflexivity].
    + assert (NB : ~ beats m x o) by (intro K; apply BS in K; discriminate).
      destruct S2 as [[R S2]|(m1 & o2 & m2 & F2 & S2)].
      * rewrite S2, NS. cbn [above_crit orb fst ch_best ch_second]. exists l1, o, (l2 ++ [x]). split; [apply fm_old; assumption|]. split; [reflexivity|].
        right. rewrite app_assoc, R. exists [], x, []. split; [apply fm_one|reflexivity].
      * rewrite S2. pose proof (beats_slot m x o2) as BS2. destruct (above_crit (f1 m x) (sl_crit (slot_of m o2)) || _) eqn:E2; cbn [fst ch_best ch_second].
        -- exists l1, o, (l2 ++ [x]). split; [apply fm_old; assumption|]. split; [reflexivity|]. right. rewrite app_assoc. exists (l1 ++ l2), x, [].
           split; [apply (fm_new _ (beats_trans m) (beats_neg m) _ _ _ _ _ F2); apply BS2; reflexivity|reflexivity].
        -- exists l1, o, (l2 ++ [x]). split; [apply fm_old; assumption|]. split; [exact Bo|]. right. rewrite app_assoc. exists m1, o2, (m2 ++ [x]).
           split; [apply fm_old; [exact F2|]; intro K; apply BS2 in K; discriminate|exact S2].
Qed.

(** The candidates evaluated in a call: those with trusted pseudo-costs, then those branched on. *)
Definition evaluated (entries : list entry) (numberLeft : nat) : list eobj :=
  flat_map (fun e => match e with Trusted o => [o] | ToBranch _ => [] end) (firstn numberLeft entries) ++
  flat_map (fun e => match e with Trusted _ => [] | ToBranch r => [sr_obj r] end) (firstn numberLeft entries).
Definition takes_second (m : Z) : Prop := (m = 3 \/ m = 4 \/ m = -4 \/ m = -5)%Z.
Lemma strong_ok tmax : forall todo i, (forall r, In r todo -> sr_down_inf r = false /\ sr_up_inf r = false) -> (forall k, tmax k = false) ->
  doStrongBranching tmax i todo = (0%Z, todo, None).
Proof.
  induction todo as [|r l IH]; intros i H T; [reflexivity|]. cbn [doStrongBranching]. destruct (H r (or_introl eq_refl)) as [-> ->]. cbn [andb orb].
  rewrite T, IH by (try exact T; intros; apply H; right; assumption). reflexivity.
Qed.

(** When something is branched on and no branch is infeasible: the variable chosen is the first of
    largest documented merit among the evaluated candidates, or for the "second best" methods the first of
    largest merit among the others (if there are others); and the way is towards the smaller change unless
    the user prefers one (down for method 6). *)
Theorem choose_variable_best : forall m tmax cutoff objval entries nleft nlist old r0,
  In (ToBranch r0) (firstn nleft entries) ->
  (forall r, In (ToBranch r) (firstn nleft entries) -> sr_down_inf r = false /\ sr_up_inf r = false) -> (forall k, tmax k = false) ->
  let '(code, which, way, _) := chooseVariable m tmax cutoff objval entries nleft nlist old in
  code = 0%Z /\
  exists l1 o l2, first_max (beats m) (evaluated entries nleft) l1 o l2 /\
    ((~ takes_second m \/ l1 ++ l2 = [] -> which = Some (eo_index o) /\ way = if (m =? 6)%Z then 0%Z else eo_way o) /\
     (takes_second m -> l1 ++ l2 <> [] -> exists m1 o2 m2, first_max (beats m) (l1 ++ l2) m1 o2 m2 /\
        which = Some (eo_index o2) /\ way = eo_way o2)).
Proof.
  intros m tmax cutoff objval entries nleft nlist old r0 H0 HI HT. unfold chooseVariable.
  destruct entries as [|e0 es]; [destruct nleft; destruct H0|]. set (entries := e0 :: es) in *. set (cand := firstn nleft entries) in *.
  set (trusted := flat_map (fun e => match e with Trusted o => [o] | ToBranch _ => [] end) cand).
  set (todo := flat_map (fun e => match e with Trusted _ => [] | ToBranch r => [r] end) cand).
  assert (TD : In r0 todo) by (apply in_flat_map; exists (ToBranch r0); split; [exact H0|left; reflexivity]).
  assert (TI : forall r, In r todo -> sr_down_inf r = false /\ sr_up_inf r = false).
  { intros r Hr. apply in_flat_map in Hr. destruct Hr as ([o|r'] & He & Hr); [destruct Hr|]. destruct Hr as [<-|[]]. apply HI, He. }
  assert (EV : evaluated entries nleft = trusted ++ map sr_obj todo).
  { unfold evaluated. fold cand. f_equal. unfold todo. clear. induction cand as [|[o|r] l IH]; cbn [flat_map map app]; [reflexivity|exact IH|]. rewrite IH. reflexivity. }
  assert (ET : exists t0 ts, todo = t0 :: ts) by (destruct todo as [|t0 ts]; [destruct TD|exists t0, ts; reflexivity]).
  assert (MT : forall T (a b : T), match todo with [] => a | _ :: _ => b end = b) by (intros; destruct ET as (? & ? & ->); reflexivity).
  rewrite MT. clear MT. rewrite (strong_ok tmax todo 0 TI HT). cbv zeta. cbn [Z.leb Z.compare andb Z.eqb].
  set (start := {| ch_best := no_slot; ch_second := {| sl_index := fst old; sl_way := snd old; sl_crit := None |} |}).
  set (ch1 := fold_left (fun ch o => fst (processObject m ch o)) trusted start).
  assert (FL : forall l ch, (forall r, In r l -> sr_down_inf r = false /\ sr_up_inf r = false) ->
     fold_left (fun acc r => let '(ch, b) := processObject m (fst acc) (estimated cutoff objval r) in (ch, if b && negb (snd acc =? 0)%Z then 2%Z else snd acc)) l (ch, 0%Z) =
     (fold_left (fun ch o => fst (processObject m ch o)) (map sr_obj l) ch, 0%Z)).
  { induction l as [|r l IH]; intros ch Hl; [reflexivity|]. cbn [fold_left map fst snd].
    assert (Er : estimated cutoff objval r = sr_obj r).
    { unfold estimated. destruct (Hl r (or_introl eq_refl)) as [-> ->]. destruct (sr_obj r); reflexivity. }
    rewrite Er. destruct (processObject m ch (sr_obj r)) as [ch' b]. cbn [fst Z.eqb negb]. rewrite andb_false_r. apply IH. intros; apply Hl; right; assumption. }
  rewrite (FL todo ch1 TI). unfold ch1. rewrite <- fold_left_app, <- EV.
  assert (FZ : filter (fun r => sr_down_inf r || sr_up_inf r) todo = []).
  { clear - TI. induction todo as [|r l IH]; [reflexivity|]. cbn [filter]. destruct (TI r (or_introl eq_refl)) as [-> ->]. apply IH. intros; apply TI; right; assumption. }
  rewrite FZ. cbn [length Nat.eqb negb]. rewrite andb_false_r.
  pose proof (process_two_best m start eq_refl (evaluated entries nleft)) as TB.
  set (ch2 := fold_left _ (evaluated entries nleft) start) in *. split; [reflexivity|].
  destruct TB as [[E _]|(l1 & o & l2 & F & Bo & S2)].
  { destruct ET as (t0 & ts & ET). rewrite EV, ET in E. destruct trusted; discriminate. }
  exists l1, o, l2. split; [exact F|].
  set (mm := if (m <? 0)%Z then (- (m + 1))%Z else m).
  assert (US : ((mm =? 3) || (mm =? 4))%Z = true <-> takes_second m).
  { unfold mm, takes_second. rewrite orb_true_iff, !Z.eqb_eq. destruct (Z.ltb_spec m 0); lia. }
  split.
  - intros HS. assert (C : (if ((mm =? 3) || (mm =? 4))%Z then match sl_index (ch_second ch2) with Some _ => ch_second ch2 | None => ch_best ch2 end else ch_best ch2) = ch_best ch2).
    { destruct ((mm =? 3) || (mm =? 4))%Z eqn:Q; [|reflexivity]. destruct HS as [N|R]; [destruct (N (proj1 US eq_refl))|].
      destruct S2 as [[_ S2]|(m1 & o2 & m2 & (F2 & _) & _)]; [rewrite S2; reflexivity|]. rewrite R in F2. destruct m1; discriminate. }
    rewrite C, Bo. cbn [slot_of sl_index sl_way]. split; reflexivity.
  - intros TS NE. destruct S2 as [[R _]|(m1 & o2 & m2 & F2 & S2)]; [contradiction|]. exists m1, o2, m2. split; [exact F2|].
    rewrite (proj2 US TS), S2. cbn [slot_of sl_index sl_way]. split; [reflexivity|]. unfold takes_second in TS. destruct (Z.eqb_spec m 6); [lia|reflexivity].
Qed.
Print Assumptions choose_variable_best.

(** Nothing unsatisfied: no choice (return code 1); both branches of an object infeasible: return code -1. *)
Theorem choose_variable_codes : forall m tmax cutoff objval nleft nlist old,
  fst (fst (fst (chooseVariable m tmax cutoff objval [] nleft nlist old))) = 1%Z /\
  (forall r es, (0 < nleft)%nat -> sr_down_inf r = true -> sr_up_inf r = true ->
     fst (fst (fst (chooseVariable m tmax cutoff objval (ToBranch r :: es) nleft nlist old))) = (-1)%Z).
Proof.
  intros. split; [reflexivity|]. intros r es HN D U. destruct nleft as [|n]; [lia|]. unfold chooseVariable. cbn [firstn flat_map app]. cbn [doStrongBranching].
  rewrite D, U. cbn [andb]. reflexivity.
Qed.
Print Assumptions choose_variable_codes.

(** Example: three candidates with changes (1,2), (3,3), (0,9): method 2 takes the second (index 5), its
    "second best" variant 4 the first. *)
Definition mk (i : nat) (dn up : Q) : eobj := {| eo_index := i; eo_col := i; eo_down := dn; eo_up := up; eo_pref := None |}.
Definition tb (o : eobj) : entry := ToBranch {| sr_obj := o; sr_down_inf := false; sr_up_inf := false |}.
Example choose_meets : let es := [tb (mk 4 1 2); tb (mk 5 3 3); tb (mk 6 0 9)] in
  chooseVariable 2 (fun _ => false) None 10 es 3 3 (None, (-1)%Z) = (0%Z, Some 5%nat, 1%Z, (Some 4%nat, 0%Z)) /\
  chooseVariable 4 (fun _ => false) None 10 es 3 3 (None, (-1)%Z) = (0%Z, Some 4%nat, 0%Z, (Some 4%nat, 0%Z)).
Proof. vm_compute. split; reflexivity. Qed.
Example best_branch_meets : let c u d := {| sc_up := u; sc_dn := d; sc_nup := 1; sc_ndn := 2; sc_pref := 0 |} in
  bestBranch [c 1 2; c 4 3; c 3 5] = Some (1%nat, (-1)%Z) /\
  keep_last false {| bd_best := false; bd_crit := 0; bd_up := 0; bd_nup := 0; bd_dn := 0; bd_ndn := 0 |} 0 [c 1 2; c 4 3; c 3 5] None = Some (1%nat, (-1)%Z).
Proof. vm_compute. split; reflexivity. Qed.

(** Refuted: "never a candidate not evaluated in this call" — with the second-best methods the object
    remembered from an earlier call is used when this call evaluates none (here index 99, time runs out at
    the first object and the list has one entry). *)
Theorem stale_second_refuted : exists m tmax entries old, takes_second m /\
  let '(_, which, _, _) := chooseVariable m tmax None 10 entries 1 1 old in
  which = Some 99%nat /\ forall e, In e entries -> entry_index e <> 99%nat.
Proof.
  exists 3%Z, (fun _ => true), [tb (mk 4 1 2)], (Some 99%nat, 0%Z). split; [left; reflexivity|]. vm_compute. split; [reflexivity|].
  intros e [<-|[]]. discriminate.
Qed.
Print Assumptions stale_second_refuted.

(** Refuted: the best is taken — when an object with one infeasible side is found, it is the one
    chosen even if an object with trusted costs has larger merit (its index is overwritten but its
    criterion kept); and when every object has trusted costs, their merits are computed but the first of the
    list is taken. *)
Theorem best_refuted :
  (exists entries, let '(_, which, _, _) := chooseVariable 2 (fun _ => false) (Some 12) 10 entries 2 2 (None, (-1)%Z) in
     which = Some 7%nat /\ In (Trusted (mk 3 20 20)) entries /\ In (ToBranch {| sr_obj := mk 7 1 1; sr_down_inf := true; sr_up_inf := false |}) entries) /\
  (exists entries, let '(_, which, _, _) := chooseVariable 2 (fun _ => false) None 10 entries 2 2 (None, (-1)%Z) in
     which = Some 3%nat /\ evaluated entries 2 = [mk 3 1 1; mk 4 20 20] /\ beats 2 (mk 4 20 20) (mk 3 1 1)).
Proof.
  split.
  - exists [Trusted (mk 3 20 20); ToBranch {| sr_obj := mk 7 1 1; sr_down_inf := true; sr_up_inf := false |}]. vm_compute. split; [reflexivity|]. tauto.
  - exists [Trusted (mk 3 1 1); Trusted (mk 4 20 20)]. split; [reflexivity|]. split; [reflexivity|]. left. vm_compute. reflexivity.
Qed.
Print Assumptions best_refuted.

(** ** Infeasible sides. *)
Definition infeasible_side (r : sbres) : Prop := sr_down_inf r = true \/ sr_up_inf r = true.
(** What a pass of strong branching returns: it examines the objects in order, up to the first with an infeasible side or
    the first after which time is up.  No such object: code 0, all are examined.  One side infeasible: code 2, with the
    object and which of its sides is (0: the first, down; 1: the other).  Both: code -1, with the object.  Time up: code 3. *)
Theorem strong_branching_outcome : forall tmax todo,
  let '(code, done, noted) := doStrongBranching tmax 0 todo in
  (code = 0%Z /\ done = todo /\ noted = None /\ (forall r, In r todo -> ~ infeasible_side r) /\ forall k, (k < length todo)%nat -> tmax k = false) \/
  exists pre r rest, todo = pre ++ r :: rest /\ done = pre ++ [r] /\ (forall q, In q pre -> ~ infeasible_side q) /\ (forall k, (k < length pre)%nat -> tmax k = false) /\
    ((code = 2%Z /\ sr_down_inf r = true /\ sr_up_inf r = false /\ noted = Some (eo_index (sr_obj r), 0%Z)) \/
     (code = 2%Z /\ sr_down_inf r = false /\ sr_up_inf r = true /\ noted = Some (eo_index (sr_obj r), 1%Z)) \/
     (code = (-1)%Z /\ sr_down_inf r = true /\ sr_up_inf r = true /\ noted = Some (eo_index (sr_obj r), (-1)%Z)) \/
     (code = 3%Z /\ ~ infeasible_side r /\ tmax (length pre) = true /\ noted = None)).
Proof.
  intros tmax todo.
  assert (G : forall todo i, let '(code, done, noted) := doStrongBranching tmax i todo in
    (code = 0%Z /\ done = todo /\ noted = None /\ (forall r, In r todo -> ~ infeasible_side r) /\ forall k, (k < length todo)%nat -> tmax (i + k)%nat = false) \/
    exists pre r rest, todo = pre ++ r :: rest /\ done = pre ++ [r] /\ (forall q, In q pre -> ~ infeasible_side q) /\ (forall k, (k < length pre)%nat -> tmax (i + k)%nat = false) /\
    ((code = 2%Z /\ sr_down_inf r = true /\ sr_up_inf r = false /\ noted = Some (eo_index (sr_obj r), 0%Z)) \/
     (code = 2%Z /\ sr_down_inf r = false /\ sr_up_inf r = true /\ noted = Some (eo_index (sr_obj r), 1%Z)) \/
     (code = (-1)%Z /\ sr_down_inf r = true /\ sr_up_inf r = true /\ noted = Some (eo_index (sr_obj r), (-1)%Z)) \/
     (code = 3%Z /\ ~ infeasible_side r /\ tmax (i + length pre)%nat = true /\ noted = None))).
  { clear todo. induction todo as [|r l IH]; intro i; cbn [doStrongBranching].
    - left. do 3 (split; [reflexivity|]). split; [intros r []|cbn; intros; lia].
    - assert (ND : forall q : sbres, In q [] -> ~ infeasible_side q) by (intros q []). assert (NT : forall k, (k < length (@nil sbres))%nat -> tmax (i + k)%nat = false) by (cbn; intros; lia).
      destruct (sr_down_inf r) eqn:D; destruct (sr_up_inf r) eqn:U; cbn [andb orb].
      + right. exists [], r, l. auto 12.
      + right. exists [], r, l. auto 12.
      + right. exists [], r, l. auto 12.
      + assert (NI : ~ infeasible_side r) by (intros [K|K]; congruence).
        destruct (tmax i) eqn:T.
        * right. exists [], r, l. rewrite Nat.add_0_r. auto 12.
        * specialize (IH (S i)). destruct (doStrongBranching tmax (S i) l) as [[code done] noted].
          assert (SH : forall n, (forall k, (k < n)%nat -> tmax (S i + k)%nat = false) -> forall k, (k < S n)%nat -> tmax (i + k)%nat = false).
          { intros n K [|k] Hk; [rewrite Nat.add_0_r; exact T|]. replace (i + S k)%nat with (S i + k)%nat by lia. apply K. lia. }
          destruct IH as [(A & B & C & E & F)|(pre & q & rest & A & B & C & E & F)].
          -- left. split; [exact A|]. split; [congruence|]. split; [exact C|]. split; [intros q [<-|Hq]; [exact NI|apply E, Hq]|]. cbn [length]. apply SH, F.
          -- right. exists (r :: pre), q, rest. split; [rewrite A; reflexivity|]. split; [rewrite B; reflexivity|]. split; [intros p [<-|Hp]; [exact NI|apply C, Hp]|].
             split; [cbn [length]; apply SH, E|]. cbn [length]. replace (i + S (length pre))%nat with (S i + length pre)%nat by lia. exact F. }
  exact (G todo 0%nat).
Qed.
Print Assumptions strong_branching_outcome.

(** The forced object is that one, and its forced way is the side that is feasible. *)
Theorem forced_way_feasible : forall tmax todo code done noted, doStrongBranching tmax 0 todo = (code, done, noted) -> (0 <= code)%Z ->
  (first_forced done = None <-> code <> 2%Z) /\
  forall i w, first_forced done = Some (i, w) -> exists r, In r done /\ eo_index (sr_obj r) = i /\
    ((w = 0%Z /\ sr_up_inf r = true /\ sr_down_inf r = false) \/ (w = 1%Z /\ sr_down_inf r = true /\ sr_up_inf r = false)).
Proof.
  intros tmax todo code done noted H C. pose proof (strong_branching_outcome tmax todo) as K. rewrite H in K.
  assert (N : forall l, (forall q, In q l -> ~ infeasible_side q) -> first_forced l = None).
  { induction l as [|q l IH]; intro Hl; [reflexivity|]. cbn [first_forced]. assert (~ infeasible_side q) as NQ by (apply Hl; left; reflexivity). unfold infeasible_side in NQ.
    destruct (sr_up_inf q); [tauto|]. destruct (sr_down_inf q); [tauto|]. apply IH. intros; apply Hl; right; assumption. }
  assert (F : forall pre r, (forall q, In q pre -> ~ infeasible_side q) -> first_forced (pre ++ [r]) = first_forced [r]).
  { induction pre as [|q pre IH]; intros r Hl; [reflexivity|]. cbn [app first_forced]. assert (~ infeasible_side q) as NQ by (apply Hl; left; reflexivity). unfold infeasible_side in NQ.
    destruct (sr_up_inf q); [tauto|]. destruct (sr_down_inf q); [tauto|]. apply IH. intros; apply Hl; right; assumption. }
  destruct K as [(-> & -> & _ & A & _)|(pre & r & rest & _ & -> & A & _ & B)].
  - rewrite (N todo A). split; [split; [intros _; discriminate|reflexivity]|discriminate].
  - rewrite (F pre r A). cbn [first_forced]. assert (IR : In r (pre ++ [r])) by (apply in_or_app; right; left; reflexivity).
    destruct B as [(-> & D & U & _)|[(-> & D & U & _)|[(-> & D & U & _)|(-> & NI & _)]]]; [| |lia|].
    + rewrite D, U. split; [split; [discriminate|congruence]|]. intros i w [= <- <-]. exists r. auto 10.
    + rewrite U. split; [split; [discriminate|congruence]|]. intros i w [= <- <-]. exists r. auto 10.
    + unfold infeasible_side in NI. destruct (sr_up_inf r); [tauto|]. destruct (sr_down_inf r); [tauto|]. split; [split; [intros _; discriminate|reflexivity]|discriminate].
Qed.
Print Assumptions forced_way_feasible.

(** With a cutoff above the objective value, an infeasible side counts for more than any change that stays below the cutoff
    (exactly twice the distance to it): so an object with one such side is branched towards the other. *)
Theorem infeasible_side_estimate : forall c objval r, objval < c -> eo_pref (sr_obj r) = None ->
  (sr_down_inf r = true -> sr_up_inf r = false -> eo_up (sr_obj r) <= c - objval ->
     eo_up (estimated (Some c) objval r) = eo_up (sr_obj r) /\ eo_down (estimated (Some c) objval r) == 2 * (c - objval) /\ eo_way (estimated (Some c) objval r) = 1%Z) /\
  (sr_up_inf r = true -> sr_down_inf r = false -> eo_down (sr_obj r) <= c - objval ->
     eo_down (estimated (Some c) objval r) = eo_down (sr_obj r) /\ eo_up (estimated (Some c) objval r) == 2 * (c - objval) /\ eo_way (estimated (Some c) objval r) = 0%Z).
Proof.
  intros c objval r L P. split; intros A B X; unfold estimated, eo_way, expensive; cbn [eo_up eo_down eo_pref]; rewrite A, B, P; (split; [reflexivity|]); (split; [reflexivity|]).
  - destruct (Qltb_reflect (2 * (c - objval)) (eo_up (sr_obj r))); [lra|reflexivity].
  - destruct (Qltb_reflect (eo_down (sr_obj r)) (2 * (c - objval))); [reflexivity|lra].
Qed.
Print Assumptions infeasible_side_estimate.
(** Without a cutoff the estimate is twice the absolute objective value, which says nothing about changes: with objective
    value below half the change, the infeasible side counts for less and is the way taken. *)
Theorem infeasible_side_refuted : forall objval r, sr_down_inf r = true -> sr_up_inf r = false -> eo_pref (sr_obj r) = None -> 2 * Qabs objval < eo_up (sr_obj r) ->
  eo_down (estimated None objval r) < eo_up (estimated None objval r) /\ eo_way (estimated None objval r) = 0%Z.
Proof.
  intros objval r D U P L. unfold estimated, eo_way, expensive; cbn [eo_up eo_down eo_pref]. rewrite D, U, P. split; [exact L|]. destruct (Qltb_reflect (2 * Qabs objval) (eo_up (sr_obj r))); [reflexivity|lra].
Qed.
Print Assumptions infeasible_side_refuted.
Example infeasible_side_meets : let r := {| sr_obj := mk 7 0 1; sr_down_inf := true; sr_up_inf := false |} in
  doStrongBranching (fun _ => false) 0 [{| sr_obj := mk 3 1 1; sr_down_inf := false; sr_up_inf := false |}; r] = (2%Z, [{| sr_obj := mk 3 1 1; sr_down_inf := false; sr_up_inf := false |}; r], Some (7%nat, 0%Z)) /\
  first_forced [r] = Some (7%nat, 1%Z) /\ eo_way (estimated (Some 12) 10 r) = 1%Z /\ eo_way (estimated None 0 r) = 0%Z.
Proof. vm_compute. repeat split. Qed.
