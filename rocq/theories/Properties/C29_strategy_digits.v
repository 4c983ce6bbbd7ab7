(** C29: the branching strategy parameter is decoded digit by digit. *)
From Verif Require Import Prelude Model.EventHandler.

(** For decimal digits a, b, c (b the tens, and so on) and anything above the hundreds: the units select the node
    comparison, the tens the branching decision, the hundreds the choose-variable method, which is negated
    for negative strategies. *)
Theorem strategy_digits s compare branch choose rest :
  (0 <= compare <= 9)%Z -> (0 <= branch <= 9)%Z -> (0 <= choose <= 9)%Z -> (0 <= rest)%Z ->
  (s = 1000 * rest + 100 * choose + 10 * branch + compare)%Z ->
  getCbcStrategies s = (compare, branch, choose) /\
  (s <> 0%Z -> getCbcStrategies (- s) = (compare, branch, (- choose)%Z)).
Proof.
  intros C B H R E.
  assert (S0 : (0 <= s)%Z) by lia.
  assert (M10 : Z.rem s 10 = compare).
  { rewrite Z.rem_mod_nonneg by lia. symmetry. apply (Z.mod_unique_pos s 10 (100 * rest + 10 * choose + branch)); lia. }
  assert (M100 : Z.rem s 100 = (10 * branch + compare)%Z).
  { rewrite Z.rem_mod_nonneg by lia. symmetry. apply (Z.mod_unique_pos s 100 (10 * rest + choose)); lia. }
  assert (M1000 : Z.rem s 1000 = (100 * choose + 10 * branch + compare)%Z).
  { rewrite Z.rem_mod_nonneg by lia. symmetry. apply (Z.mod_unique_pos s 1000 rest); lia. }
  assert (QB : Z.quot (10 * branch + compare - compare) 10 = branch).
  { replace (10 * branch + compare - compare)%Z with (branch * 10)%Z by lia. apply Z.quot_mul. lia. }
  assert (Q : forall sg, Z.quot (sg * (100 * choose + 10 * branch + compare - compare - 10 * branch)) 100 = (sg * choose)%Z).
  { intro sg. replace (sg * (100 * choose + 10 * branch + compare - compare - 10 * branch))%Z with (sg * choose * 100)%Z by lia. apply Z.quot_mul. lia. }
  split.
  - unfold getCbcStrategies. cbv zeta. rewrite (Z.abs_eq s S0), M10, M100, M1000, QB.
    replace (s <? 0)%Z with false by (symmetry; apply Z.ltb_ge; lia). rewrite Q. apply f_equal2; [reflexivity|lia].
  - intro N. unfold getCbcStrategies. cbv zeta. rewrite Z.abs_opp, (Z.abs_eq s S0), M10, M100, M1000, QB.
    replace (- s <? 0)%Z with true by (symmetry; apply Z.ltb_lt; lia). rewrite Q. apply f_equal2; [reflexivity|lia].
Qed.
Print Assumptions strategy_digits.

(** Every integer strategy has such a decomposition, so the decoded values are always digits. *)
Theorem strategy_total s : exists compare branch choose,
  getCbcStrategies s = (compare, branch, choose) /\
  (0 <= compare <= 9)%Z /\ (0 <= branch <= 9)%Z /\ (Z.abs choose <= 9)%Z /\ ((0 <= s)%Z -> (0 <= choose)%Z) /\ ((s <= 0)%Z -> (choose <= 0)%Z).
Proof.
  set (a := Z.abs s). assert (A0 : (0 <= a)%Z) by apply Z.abs_nonneg.
  set (c := (a mod 10)%Z). set (b := ((a / 10) mod 10)%Z). set (h := ((a / 100) mod 10)%Z). set (r := (a / 1000)%Z).
  assert (E : (a = 1000 * r + 100 * h + 10 * b + c)%Z).
  { pose proof (Z.div_mod a 10 ltac:(lia)) as D1. pose proof (Z.div_mod (a / 10) 10 ltac:(lia)) as D2.
    pose proof (Z.div_mod (a / 100) 10 ltac:(lia)) as D3.
    assert (X1 : (a / 10 / 10 = a / 100)%Z) by (rewrite Z.div_div by lia; reflexivity).
    assert (X2 : (a / 100 / 10 = a / 1000)%Z) by (rewrite Z.div_div by lia; reflexivity).
    unfold c, b, h, r. lia. }
  pose proof (Z.mod_pos_bound a 10 ltac:(lia)) as Bc. pose proof (Z.mod_pos_bound (a / 10) 10 ltac:(lia)) as Bb.
  pose proof (Z.mod_pos_bound (a / 100) 10 ltac:(lia)) as Bh. assert (Br : (0 <= r)%Z) by (apply Z.div_pos; lia).
  destruct (strategy_digits a c b h r ltac:(lia) ltac:(lia) ltac:(lia) Br E) as [P N].
  destruct (Z.le_ge_cases 0 s) as [S|S].
  - exists c, b, h. replace s with a by (unfold a; lia). split; [exact P|]. fold c b h in Bc, Bb, Bh. 
    split; [lia|]. split; [lia|]. split; [lia|]. split; [lia|]. intro Z0. assert (a = 0%Z) by lia. lia.
  - destruct (Z.eq_dec a 0) as [Z0|Z0].
    + exists 0%Z, 0%Z, 0%Z. replace s with 0%Z by lia. split; [reflexivity|lia].
    + exists c, b, (- h)%Z. replace s with (- a)%Z by (unfold a; lia). split; [apply N, Z0|]. fold c b h in Bc, Bb, Bh.
      split; [lia|]. split; [lia|]. split; [lia|]. split; lia.
Qed.
Print Assumptions strategy_total.

Example strategy_example : getCbcStrategies 4 = (4, 0, 0)%Z /\ getCbcStrategies (-123) = (3, 2, -1)%Z /\ getCbcStrategies 5123 = (3, 2, 1)%Z.
Proof. repeat split; reflexivity. Qed.
