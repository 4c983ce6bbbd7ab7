(** C88: scaling a cut by a power of ten; the norm of a row. *)
From Coq Require Import Qpower Reals Qreals.
From Verif Require Import Spec.ScaleSpec Proofs.ToleranceP Properties.C82_PrintParams.
From Coq Require Import Lra Lqa.
#[local] Open Scope Q_scope.

(** ** Smallest and largest. *)
Lemma minmax_spec EPS v : 0 < EPS -> forall mn mx, (mn = 0 /\ mx = 0 \/ EPS <= mn /\ mn <= mx) ->
  let '(a, b) := minmax_loop EPS v mn mx in
  (a = 0 /\ b = 0 /\ mn = 0 /\ forall e, In e v -> isZero (Qabs (snd e)) EPS = true) \/
  (EPS <= a /\ a <= b /\ (forall e, In e v -> isZero (Qabs (snd e)) EPS = false -> a <= Qabs (snd e) /\ Qabs (snd e) <= b) /\ (mn = 0 \/ a <= mn /\ mx <= b) /\
   (a = mn \/ exists e, In e v /\ a = Qabs (snd e) /\ isZero (Qabs (snd e)) EPS = false) /\ (b = mx \/ exists e, In e v /\ b = Qabs (snd e) /\ isZero (Qabs (snd e)) EPS = false)).
Proof.
  intros EP. induction v as [|e v IH]; intros mn mx H; cbn [minmax_loop].
  - destruct H as [[-> ->]|[H1 H2]]; [left|right].
    + split; [reflexivity|]. split; [reflexivity|]. split; [reflexivity|]. intros e [].
    + split; [exact H1|]. split; [exact H2|]. split; [intros e []|]. split; [right; split; apply Qle_refl|]. split; left; reflexivity.
  - destruct (isZero (Qabs (snd e)) EPS) eqn:Z.
    + specialize (IH mn mx H). destruct (minmax_loop EPS v mn mx) as [a b]. destruct IH as [(A & B & C & D)|(A & B & C & D & E & F)].
      * left. repeat (split; [assumption|]). intros x [<-|X]; [exact Z|apply D, X].
      * right. split; [exact A|]. split; [exact B|]. split; [intros x [<-|X] NZ; [congruence|apply C; assumption]|]. split; [exact D|].
        split; [destruct E as [E|(x & X & E)]; [left; exact E|right; exists x; split; [right; exact X|exact E]]|destruct F as [F|(x & X & F)]; [left; exact F|right; exists x; split; [right; exact X|exact F]]].
    + assert (G : EPS <= Qabs (snd e)). { apply isZero_false_iff in Z. rewrite Qabs_pos in Z by apply Qabs_nonneg. exact Z. }
      set (s := Qabs (snd e)) in *.
      assert (MN : (if Qltb s mn || isZero mn EPS then s else mn) = s /\ (mn = 0 \/ s <= mn) \/ (if Qltb s mn || isZero mn EPS then s else mn) = mn /\ EPS <= mn /\ mn <= s).
      { destruct H as [[-> ->]|[H1 H2]].
        - left. assert (isZero 0 EPS = true) as -> by (apply isZero_iff; cbn; exact EP). rewrite Bool.orb_true_r. split; [reflexivity|left; reflexivity].
        - assert (isZero mn EPS = false) as -> by (apply isZero_false_iff; rewrite Qabs_pos by lra; exact H1). rewrite Bool.orb_false_r.
          destruct (Qltb_reflect s mn) as [L|L]; [left; split; [reflexivity|right; lra]|right; split; [reflexivity|split; [exact H1|apply Qnot_lt_le, L]]]. }
      assert (MX : (if Qltb mx s then s else mx) = s /\ (mx <= s) \/ (if Qltb mx s then s else mx) = mx /\ s <= mx).
      { destruct (Qltb_reflect mx s) as [L|L]; [left; split; [reflexivity|lra]|right; split; [reflexivity|apply Qnot_lt_le, L]]. }
      set (mn' := if Qltb s mn || isZero mn EPS then s else mn) in *. set (mx' := if Qltb mx s then s else mx) in *.
      assert (I : EPS <= mn' /\ mn' <= mx').
      { destruct MN as [[-> M]|[-> [M1 M2]]]; destruct MX as [[-> X]|[-> X]]; split; try lra. }
      assert (O : mn = 0 \/ mn' <= mn /\ mx <= mx').
      { destruct H as [[-> ->]|[H1 H2]]; [left; reflexivity|right]. destruct MN as [[-> [M|M]]|[-> [M1 M2]]]; destruct MX as [[-> X]|[-> X]]; split; try lra; subst mn; lra. }
      assert (S1 : mn' <= s /\ s <= mx') by (destruct MN as [[-> M]|[-> [M1 M2]]]; destruct MX as [[-> X]|[-> X]]; split; lra).
      specialize (IH mn' mx' (or_intror I)). destruct (minmax_loop EPS v mn' mx') as [a b]. destruct IH as [(A & B & C & D)|(A & B & C & D & E & F)].
      * exfalso. rewrite C in I. destruct I as [I _]. lra.
      * assert (K : a <= mn' /\ mx' <= b) by (destruct D as [D|D]; [rewrite D in I; destruct I; lra|exact D]). destruct K as [K1 K2]. destruct S1 as [S1 S2].
        right. split; [exact A|]. split; [exact B|]. split; [intros x [<-|X] NZ; [fold s; split; lra|apply C; assumption]|].
        split; [destruct O as [O|[O1 O2]]; [left; exact O|right; split; lra]|].
        split.
        -- destruct E as [E|(x & X & E)]; [|right; exists x; split; [right; exact X|exact E]]. destruct MN as [[M _]|[M _]]; [right; exists e; split; [left; reflexivity|]; split; [fold s; congruence|fold s; exact Z]|left; congruence].
        -- destruct F as [F|(x & X & F)]; [|right; exists x; split; [right; exact X|exact F]]. destruct MX as [[M _]|[M _]]; [right; exists e; split; [left; reflexivity|]; split; [fold s; congruence|fold s; exact Z]|left; congruence].
Qed.
(** What scaleCut computes first. *)
Lemma extremes EPS c : 0 < EPS ->
  let '(mn, mx0) := minmax_loop EPS (crow c) 0 0 in
  let mx := if Qltb mx0 (Qabs (crhs c)) then Qabs (crhs c) else mx0 in
  (mn = 0 /\ forall a, ~ counted EPS c a) \/ (EPS <= mn /\ mn <= mx /\ smallest EPS c mn /\ largest EPS c mx).
Proof.
  intros EP. pose proof (minmax_spec EPS (crow c) EP 0 0 (or_introl (conj eq_refl eq_refl))) as H. destruct (minmax_loop EPS (crow c) 0 0) as [mn mx0]. cbv zeta.
  destruct H as [(A & B & _ & D)|(A & B & C & _ & E & F)]; [left; split; [exact A|]; intros a (e & I & -> & Z); rewrite (D e I) in Z; discriminate|]. right.
  assert (MC : forall a e, In e (crow c) -> a = Qabs (snd e) -> isZero (Qabs (snd e)) EPS = false -> counted EPS c a) by (intros a e I -> Z; exists e; split; [exact I|split; [reflexivity|exact Z]]).
  assert (CC : forall b, counted EPS c b -> mn <= b /\ b <= mx0) by (intros b (e & I & -> & Z); apply C; assumption).
  split; [exact A|]. split; [destruct (Qltb_reflect mx0 (Qabs (crhs c))); lra|]. split.
  - split; [|intros b K; apply CC, K]. destruct E as [E|(e & I & E & Z)]; [subst mn; lra|exact (MC mn e I E Z)].
  - assert (X : counted EPS c mx0) by (destruct F as [F|(e & I & F & Z)]; [subst mx0; lra|exact (MC mx0 e I F Z)]).
    destruct (Qltb_reflect mx0 (Qabs (crhs c))) as [L|L].
    + split; [right; reflexivity|]. split; [intros b K; destruct (CC b K); lra|apply Qle_refl].
    + split; [left; exact X|]. split; [intros b K; apply CC, K|apply Qnot_lt_le, L].
Qed.
(** The exponent of the scale, and what the scale does to the product of the extremes. *)
Lemma power_gt e : 0 < power e. Proof. apply power_gt0. Qed.
Lemma cast_half n : (n < 0)%Z -> cast_int ((1#2) * inject_Z n + (1#4)) = Z.quot (2 * n + 1) 4.
Proof.
  intros H. unfold cast_int. destruct n as [|p|p]; [lia|lia|]. cbn -[Z.quot Z.mul Z.add Pos.mul].
  change (Z.neg p) with (- Z.pos p)%Z. replace ((1 * - Z.pos p * 4 + 1 * Z.pos (2 * 1)))%Z with (2 * (2 * - Z.pos p + 1))%Z by lia.
  replace (Z.pos (2 * 1 * 4)) with (2 * 4)%Z by reflexivity. rewrite Z.quot_mul_cancel_l by lia. reflexivity.
Qed.
Lemma quarter n : (n < 0)%Z -> let s := (1 - Z.quot (2 * n + 1) 4)%Z in (1 <= s)%Z /\ (- n <= 2 * s <= - n + 1)%Z.
Proof.
  intros H. cbv zeta. pose proof (Z.quot_rem' (2 * n + 1) 4) as A. pose proof (Z.rem_bound_pos (- (2 * n + 1)) 4 ltac:(lia) ltac:(lia)) as B. rewrite Z.rem_opp_l in B by lia.
  set (q := Z.quot (2 * n + 1) 4) in *. set (r := Z.rem (2 * n + 1) 4) in *. clearbody q r. lia.
Qed.
Lemma power_int n : (0 <= n)%Z -> power n = inject_Z (10 ^ n).
Proof. intros H. unfold power. apply Z.leb_le in H. rewrite H. reflexivity. Qed.
Lemma whole_between x e : whole_log x e -> power (e - 1) < x /\ x < power (e + 1).
Proof.
  intros [(A & B & C & D)|(A & B & C & D)].
  - split; [|exact D]. apply Qlt_le_trans with (power e); [|exact C]. replace (power e) with (power (e - 1 + 1)) by (f_equal; lia). rewrite power_plus. pose proof (power_gt (e - 1)). change (power 1) with (10#1). lra.
  - split; [exact C|]. apply Qle_lt_trans with (power e); [exact D|]. rewrite power_plus. pose proof (power_gt e). change (power 1) with (10#1). lra.
Qed.
Lemma power_lt a b : (a < b)%Z -> power a < power b.
Proof.
  intros H. apply Qlt_le_trans with (power (a + 1)); [|apply power_mono; lia]. rewrite power_plus. pose proof (power_gt a). change (power 1) with (10#1). lra.
Qed.
Lemma power_mul_lt a b x y : 0 < y -> power a < x -> power b < y -> power (a + b) < x * y.
Proof. intros P A B. rewrite power_plus. pose proof (power_gt a). pose proof (power_gt b). assert (power a * power b < power a * y) by (apply Qmult_lt_l; assumption). assert (power a * y < x * y) by (apply Qmult_lt_r; assumption). lra. Qed.
Lemma power_mul_lt' a b x y : 0 < x -> x < power a -> y < power b -> x * y < power (a + b).
Proof. intros P A B. rewrite power_plus. pose proof (power_gt a). pose proof (power_gt b). assert (x * y < x * power b) by (apply Qmult_lt_l; assumption). assert (x * power b < power a * power b) by (apply Qmult_lt_r; assumption). lra. Qed.
Lemma power_mul_le' a b x y : 0 < x -> x <= power a -> y < power b -> x * y < power (a + b).
Proof. intros P A B. rewrite power_plus. pose proof (power_gt a). pose proof (power_gt b). assert (x * y < x * power b) by (apply Qmult_lt_l; assumption). assert (x * power b <= power a * power b) by (apply Qmult_le_compat_r; [exact A|lra]). lra. Qed.
(** The result, in full. *)
Lemma scale_shape lg EPS c c' : 0 < EPS -> logs lg -> scaleCut lg EPS c = Some c' -> exists s mn mx, (0 <= s)%Z /\
  crow c' = map (fun e => (fst e, snd e * inject_Z (10 ^ s))) (crow c) /\ crhs c' = crhs c * inject_Z (10 ^ s) /\
  smallest EPS c mn /\ largest EPS c mx /\ EPS <= mn /\ mn <= mx /\
  ((s = 0%Z /\ (0 <= lg mn + lg mx)%Z) \/ ((1 <= s)%Z /\ (lg mn + lg mx < 0)%Z /\ (- (lg mn + lg mx) <= 2 * s <= - (lg mn + lg mx) + 1)%Z)).
Proof.
  intros EP LG. unfold scaleCut. pose proof (extremes EPS c EP) as X. destruct (minmax_loop EPS (crow c) 0 0) as [mn mx0]. cbv zeta in X |- *. set (mx := if Qltb mx0 (Qabs (crhs c)) then Qabs (crhs c) else mx0) in *.
  destruct X as [(-> & _)|(A & B & S & L)]; [discriminate|]. destruct (Qle_bool mn 0 || Qle_bool mx 0); [discriminate|]. intros H.
  destruct (Qltb_reflect ((1#2) * inject_Z (lg mn + lg mx)) (- (1#4))) as [N|N].
  - assert (NZ : (lg mn + lg mx < 0)%Z). { assert (inject_Z (lg mn + lg mx) < 0) by lra. change 0 with (inject_Z 0) in H0. rewrite <- Zlt_Qlt in H0. exact H0. }
    rewrite (cast_half _ NZ) in H. pose proof (quarter _ NZ) as Q. cbv zeta in Q. set (s := (1 - Z.quot (2 * (lg mn + lg mx) + 1) 4)%Z) in *. injection H as <-.
    exists s, mn, mx. split; [lia|]. split; [reflexivity|]. split; [reflexivity|]. split; [exact S|]. split; [exact L|]. split; [exact A|]. split; [exact B|]. right. split; [lia|split; [exact NZ|lia]].
  - injection H as <-. exists 0%Z, mn, mx. split; [lia|]. split; [reflexivity|]. split; [reflexivity|]. split; [exact S|]. split; [exact L|]. split; [exact A|]. split; [exact B|]. left. split; [reflexivity|].
    apply Qnot_lt_le in N. destruct (Z.le_gt_cases 0 (lg mn + lg mx)) as [P|P]; [exact P|]. assert (Q : inject_Z (lg mn + lg mx) <= inject_Z (-1)) by (rewrite <- Zle_Qle; lia). change (inject_Z (-1)) with (-(1)) in Q. lra.
Qed.
Lemma pdot_scale s v x : pdot (map (fun e => (fst e, snd e * s)) v) x == s * pdot v x.
Proof. induction v as [|e v IH]; [cbn; ring|]. cbn [map]. rewrite !pdot_cons. cbn [fst snd]. rewrite IH. ring. Qed.

(** ** The theorems. *)
(** A scaled cut has the same variables, and every number is multiplied by the same power of ten, at least one: the same points satisfy it, and the
    violation of the others is multiplied by that power. *)
Theorem scaled_same : forall lg EPS c c', 0 < EPS -> logs lg -> scaleCut lg EPS c = Some c' ->
  (forall x, accepts c' x <-> accepts c x) /\ map fst (crow c') = map fst (crow c) /\
  exists s, (0 <= s)%Z /\ Forall2 (fun e e' => fst e' = fst e /\ snd e' == snd e * power s) (crow c) (crow c') /\ crhs c' == crhs c * power s /\
    forall x, violated c' x == violated c x * power s.
Proof.
  intros lg EPS c c' EP LG H. destruct (scale_shape lg EPS c c' EP LG H) as (s & mn & mx & S & R & B & _). set (k := inject_Z (10 ^ s)) in *.
  assert (K : 0 < k). { unfold k. change 0 with (inject_Z 0). rewrite <- Zlt_Qlt. apply Z.pow_pos_nonneg; lia. }
  assert (D : forall x, pdot (crow c') x == k * pdot (crow c) x) by (intros x; rewrite R; apply pdot_scale).
  assert (P : power s = k) by (apply power_int, S).
  split; [|split].
  - intros x. unfold accepts. rewrite D, B, (Qmult_comm (crhs c)). apply Qmult_le_l, K.
  - rewrite R, map_map. reflexivity.
  - exists s. split; [exact S|]. rewrite P. split; [|split].
    + rewrite R. clear. induction (crow c) as [|e v IH]; cbn [map]; constructor; [split; [reflexivity|apply Qeq_refl]|exact IH].
    + rewrite B. reflexivity.
    + intros x. unfold violated. assert (B' : crhs c' == k * crhs c) by (rewrite B; ring). rewrite (Qltb_comp _ _ (D x) _ _ B').
      destruct (Qltb_reflect (k * pdot (crow c) x) (k * crhs c)) as [L|L]; destruct (Qltb_reflect (pdot (crow c) x) (crhs c)) as [M|M].
      * rewrite D, B. ring.
      * exfalso. apply M. apply Qmult_lt_l in L; [exact L|exact K].
      * exfalso. apply L. apply Qmult_lt_l; [exact K|exact M].
      * ring.
Qed.
Print Assumptions scaled_same.

(** The function is defined exactly when some coefficient counts (otherwise log10(0) is converted to int). *)
Theorem defined_iff : forall lg EPS c, 0 < EPS -> ((exists c', scaleCut lg EPS c = Some c') <-> exists a, counted EPS c a).
Proof.
  intros lg EPS c EP. unfold scaleCut. pose proof (extremes EPS c EP) as X. destruct (minmax_loop EPS (crow c) 0 0) as [mn mx0]. cbv zeta in X |- *.
  set (mx := if Qltb mx0 (Qabs (crhs c)) then Qabs (crhs c) else mx0) in *. destruct X as [(-> & N)|(A & B & S & L)].
  - split; [intros (c' & H); discriminate|intros (a & K); elim (N a K)].
  - split; intros _; [exists mn; exact (proj1 S)|].
    assert (Qle_bool mn 0 = false) as -> by (destruct (Qle_bool mn 0) eqn:E; [apply Qle_bool_iff in E; lra|reflexivity]).
    assert (Qle_bool mx 0 = false) as -> by (destruct (Qle_bool mx 0) eqn:E; [apply Qle_bool_iff in E; lra|reflexivity]).
    eexists. reflexivity.
Qed.
Print Assumptions defined_iff.

(** After scaling, the smallest counted coefficient times the largest number is more than one hundredth; it is also less than one hundred
    if the cut was changed; and the cut is left alone exactly when its logarithms do not add to something negative. *)
Theorem balanced : forall lg EPS c c' lo hi, 0 < EPS -> logs lg -> scaleCut lg EPS c = Some c' -> smallest EPS c lo -> largest EPS c hi ->
  exists s, (0 <= s)%Z /\ Forall2 (fun e e' => snd e' == snd e * power s) (crow c) (crow c') /\
    1 # 100 < (lo * power s) * (hi * power s) /\ ((0 < s)%Z -> (lo * power s) * (hi * power s) < 100) /\
    exists lo', lo' == lo /\ exists hi', hi' == hi /\ (s = 0%Z <-> (0 <= lg lo' + lg hi')%Z).
Proof.
  intros lg EPS c c' lo hi EP LG H SL LH. destruct (scale_shape lg EPS c c' EP LG H) as (s & mn & mx & S & R & B & SM & LM & E1 & E2 & C).
  assert (El : mn == lo) by (apply Qle_antisym; [apply (proj2 SM), (proj1 SL)|apply (proj2 SL), (proj1 SM)]).
  assert (Eh : mx == hi).
  { destruct LM as (M1 & M2 & M3), LH as (L1 & L2 & L3). apply Qle_antisym; [destruct M1 as [M1| ->]; [exact (L2 _ M1)|exact L3]|destruct L1 as [L1| ->]; [exact (M2 _ L1)|exact M3]]. }
  assert (P1 : 0 < mn) by lra. assert (P2 : 0 < mx) by lra. destruct (whole_between _ _ (LG mn P1)) as [W1 W2], (whole_between _ _ (LG mx P2)) as [V1 V2].
  pose proof (power_gt s) as PS.
  exists s. split; [exact S|]. split.
  { rewrite R, (power_int s S). clear. induction (crow c) as [|e v IH]; cbn [map]; constructor; [apply Qeq_refl|exact IH]. }
  assert (G : lo * power s * (hi * power s) == mn * mx * power (2 * s)) by (rewrite <- El, <- Eh; replace (2 * s)%Z with (s + s)%Z by lia; rewrite power_plus; ring).
  pose proof (power_gt (2 * s)) as P2S.
  split; [|split].
  - rewrite G. change (1#100) with (power (-2)). destruct C as [(-> & C)|(_ & _ & C1 & _)].
    + change (power (2 * 0)) with 1. apply Qle_lt_trans with (power ((lg mn - 1) + (lg mx - 1))); [apply power_mono; lia|].
      rewrite Qmult_1_r. apply power_mul_lt; assumption.
    + apply Qle_lt_trans with (power (((lg mn - 1) + (lg mx - 1)) + 2 * s)); [apply power_mono; lia|].
      rewrite power_plus. apply Qmult_lt_r; [exact P2S|]. apply power_mul_lt; assumption.
  - intros SP. rewrite G. destruct C as [(-> & C)|(_ & N & _ & C2)]; [lia|].
    change 100 with (power 2). destruct (Z_le_gt_dec 0 (lg mn)) as [O|O].
    + exfalso. assert (M : mn <= mx) by exact E2. (* the larger one has the larger logarithm *)
      assert (Q1 : 1 <= mn). { destruct (LG mn P1) as [(X & _)|(X & Y & Z1 & Z2)]; [exact X|]. exfalso. assert (lg mn = 0)%Z by lia. rewrite H0 in *. clear V1 V2.
        destruct (LG mx P2) as [(X' & Y' & _)|(X' & Y' & Z' & _)]; [lia|]. assert (power 0 * (1#10) < mn) by (change (power 0 * (1#10)) with (power (0 - 1)); exact Z1).
        assert (power (lg mx) < mn). { apply Qle_lt_trans with (power (0 - 1)); [apply power_mono; lia|exact Z1]. }
        assert (mx <= power (lg mx)) by (destruct (LG mx P2) as [(X2 & _)|(_ & _ & _ & X2)]; [lra|exact X2]). lra. }
      destruct (LG mx P2) as [(X & Y & _)|(X & _)]; [lia|lra].
    + destruct (LG mn P1) as [(_ & Y & _)|(_ & _ & _ & Q1)]; [lia|].
      apply Qlt_le_trans with (power ((lg mn + (lg mx + 1)) + 2 * s)); [|apply power_mono; lia].
      rewrite (power_plus _ (2 * s)). apply Qmult_lt_r; [exact P2S|]. apply power_mul_le'; assumption.
  - exists mn. split; [exact El|]. exists mx. split; [exact Eh|]. destruct C as [(A & C)|(A & C & _)]; split; lia.
Qed.
Print Assumptions balanced.

(** ** Logarithms exist. *)
Lemma whole_exists x : 0 < x -> exists e, whole_log x e.
Proof.
  intros P. destruct (decade x P) as (e & E1 & E2). destruct (Qlt_le_dec x 1) as [L|G].
  - assert (N : (e < 0)%Z). { destruct (Z_lt_le_dec e 0) as [N|N]; [exact N|]. pose proof (power_mono 0 e N) as M. change (power 0) with 1 in M. lra. }
    destruct (Qlt_le_dec (power e) x) as [S|S].
    + exists (e + 1)%Z. right. split; [exact L|]. split; [lia|]. replace (e + 1 - 1)%Z with e by lia. split; [exact S|lra].
    + exists e. right. split; [exact L|]. split; [lia|]. split; [|exact S]. apply Qlt_le_trans with (power e); [apply power_lt; lia|exact E1].
  - exists e. left. split; [exact G|]. split; [|split; assumption]. destruct (Z_lt_le_dec e 0) as [N|N]; [|exact N]. pose proof (power_mono (e + 1) 0 ltac:(lia)) as M. change (power 0) with 1 in M. lra.
Qed.
Lemma whole_unique x e f : whole_log x e -> whole_log x f -> e = f.
Proof.
  intros [(A & B & C & D)|(A & B & C & D)] [(A' & B' & C' & D')|(A' & B' & C' & D')]; try lra.
  - destruct (Z.lt_trichotomy e f) as [L|[L|L]]; [|exact L|]; exfalso; [pose proof (power_mono (e + 1) f ltac:(lia))|pose proof (power_mono (f + 1) e ltac:(lia))]; lra.
  - destruct (Z.lt_trichotomy e f) as [L|[L|L]]; [|exact L|]; exfalso; [pose proof (power_mono e (f - 1) ltac:(lia))|pose proof (power_mono f (e - 1) ltac:(lia))]; lra.
Qed.
Lemma whole_dec x e : {whole_log x e} + {~ whole_log x e}.
Proof.
  assert (LE : forall a b : Q, {a <= b} + {~ a <= b}) by (intros a b; destruct (Qlt_le_dec b a) as [L|L]; [right; intro; lra|left; exact L]).
  assert (LT : forall a b : Q, {a < b} + {~ a < b}) by (intros a b; destruct (Qlt_le_dec a b) as [L|L]; [left; exact L|right; intro; lra]).
  assert (ZL : forall a b : Z, {(a <= b)%Z} + {~ (a <= b)%Z}) by (intros a b; apply Z_le_dec).
  unfold whole_log. destruct (LE 1 x), (ZL 0%Z e), (LE (power e) x), (LT x (power (e + 1))), (LT x 1), (ZL e 0%Z), (LT (power (e - 1)) x), (LE x (power e)); tauto.
Qed.
(** The contract of the logarithm can be met. *)
Definition true_log (x : Q) : Z.
Proof.
  destruct (Qlt_le_dec 0 x) as [P|N]; [|exact 0%Z].
  assert (D : forall n, {whole_log x (Z.of_nat n) \/ whole_log x (- Z.of_nat n)} + {~ (whole_log x (Z.of_nat n) \/ whole_log x (- Z.of_nat n))}).
  { intros n. destruct (whole_dec x (Z.of_nat n)); [left; tauto|]. destruct (whole_dec x (- Z.of_nat n)); [left; tauto|right; tauto]. }
  assert (E : exists n, whole_log x (Z.of_nat n) \/ whole_log x (- Z.of_nat n)).
  { destruct (whole_exists x P) as [e W]. exists (Z.to_nat (Z.abs e)). rewrite Z2Nat.id by lia. destruct (Z.abs_eq_or_opp e) as [A|A]; rewrite A; [left; exact W|right; rewrite Z.opp_involutive; exact W]. }
  destruct (ConstructiveEpsilon.constructive_indefinite_ground_description_nat _ D E) as [n _].
  destruct (whole_dec x (Z.of_nat n)); [exact (Z.of_nat n)|exact (- Z.of_nat n)%Z].
Defined.
Lemma true_log_logs : logs true_log.
Proof.
  intros x P. unfold true_log. destruct (Qlt_le_dec 0 x) as [P'|N]; [|lra].
  match goal with |- context[ConstructiveEpsilon.constructive_indefinite_ground_description_nat ?p ?d ?e] => destruct (ConstructiveEpsilon.constructive_indefinite_ground_description_nat p d e) as [n [H|H]] end.
  - destruct (whole_dec x (Z.of_nat n)); [assumption|contradiction].
  - destruct (whole_dec x (Z.of_nat n)); assumption.
Qed.

(** ** What is not promised. *)
Local Ltac log_is H LG x e := assert (LG x = e) as -> by (apply (whole_unique x); [apply H; reflexivity|first [left; split; [discriminate|split; [discriminate|split; [discriminate|reflexivity]]]|right; split; [reflexivity|split; [discriminate|split; [reflexivity|discriminate]]]]]).
(** "Neither too small nor too big": a cut whose numbers are enormous is left as it is. *)
Theorem too_big_refuted : forall lg, logs lg -> exists c, (forall e, In e (crow c) -> 10 ^ 8 <= Qabs (snd e)) /\ scaleCut lg EPS7 c = Some c.
Proof.
  intros lg H. exists {| crow := [(0%nat, 100000000); (1%nat, 400000000)]; crhs := 200000000 |}. split; [intros e [<-|[<-|[]]]; vm_compute; discriminate|].
  unfold scaleCut. cbn [crow crhs].
  match goal with |- context[minmax_loop ?a ?b ?c ?d] => let v := eval vm_compute in (minmax_loop a b c d) in change (minmax_loop a b c d) with v end. cbv beta iota zeta.
  change (Qabs 200000000) with 200000000. change (Qltb 400000000 200000000) with false. cbv iota. change (Qle_bool 100000000 0 || Qle_bool 400000000 0) with false. cbv iota.
  log_is H lg 100000000 8%Z. log_is H lg 400000000 8%Z. reflexivity.
Qed.
Print Assumptions too_big_refuted.
(** Scaling twice is not scaling once. *)
Theorem idempotent_refuted : forall lg, logs lg -> exists c c1 c2, scaleCut lg EPS7 c = Some c1 /\ scaleCut lg EPS7 c1 = Some c2 /\
  ~ Forall2 (fun e e' => snd e == snd e') (crow c1) (crow c2) /\ ~ Forall2 (fun e e' => snd e == snd e') (crow c) (crow c1).
Proof.
  intros lg H.
  exists {| crow := [(0%nat, 9#1000); (1%nat, 3#10)]; crhs := 0 |}, {| crow := [(0%nat, 90#1000); (1%nat, 30#10)]; crhs := 0 |}, {| crow := [(0%nat, 900#1000); (1%nat, 300#10)]; crhs := 0 |}.
  assert (A : lg (9#1000) = (-2)%Z) by (apply (whole_unique (9#1000)); [apply H; reflexivity|right; split; [reflexivity|split; [discriminate|split; [reflexivity|discriminate]]]]).
  assert (B : lg (3#10) = 0%Z) by (apply (whole_unique (3#10)); [apply H; reflexivity|right; split; [reflexivity|split; [discriminate|split; [reflexivity|discriminate]]]]).
  assert (C : lg (90#1000) = (-1)%Z) by (apply (whole_unique (90#1000)); [apply H; reflexivity|right; split; [reflexivity|split; [discriminate|split; [reflexivity|discriminate]]]]).
  assert (D : lg (30#10) = 0%Z) by (apply (whole_unique (30#10)); [apply H; reflexivity|left; split; [discriminate|split; [discriminate|split; [discriminate|reflexivity]]]]).
  split; [|split; [|split]].
  - unfold scaleCut. cbn [crow crhs].
    match goal with |- context[minmax_loop ?a ?b ?c ?d] => let v := eval vm_compute in (minmax_loop a b c d) in change (minmax_loop a b c d) with v end. cbv beta iota zeta.
    change (Qabs 0) with 0. change (Qltb (3#10) 0) with false. cbv iota. change (Qle_bool (9#1000) 0 || Qle_bool (3#10) 0) with false. cbv iota. rewrite A, B. reflexivity.
  - unfold scaleCut. cbn [crow crhs].
    match goal with |- context[minmax_loop ?a ?b ?c ?d] => let v := eval vm_compute in (minmax_loop a b c d) in change (minmax_loop a b c d) with v end. cbv beta iota zeta.
    change (Qabs 0) with 0. change (Qltb (30#10) 0) with false. cbv iota. change (Qle_bool (90#1000) 0 || Qle_bool (30#10) 0) with false. cbv iota. rewrite C, D. reflexivity.
  - intros X. inversion X as [|? ? ? ? Y]. discriminate Y.
  - intros X. inversion X as [|? ? ? ? Y]. discriminate Y.
Qed.
Print Assumptions idempotent_refuted.
(** With no tolerance nothing counts as zero, the minimum stays at its initial zero for ever, and the function is never defined. *)
Theorem no_tolerance_refuted : forall lg c, Forall (fun e => 0 < Qabs (snd e)) (crow c) -> (forall e, In e (crow c) -> exists a, counted 0 c a) /\ scaleCut lg 0 c = None.
Proof.
  intros lg c F. assert (NZ : forall a, isZero a 0 = false) by (intros a; apply isZero_false_iff; apply Qabs_nonneg).
  split; [intros e I; exists (Qabs (snd e)), e; split; [exact I|split; [reflexivity|apply NZ]]|].
  assert (L : forall v mx, exists b, minmax_loop 0 v 0 mx = (0, b) \/ exists e, In e v /\ ~ 0 < Qabs (snd e)).
  { induction v as [|e v IH]; intros mx; cbn [minmax_loop]; [exists mx; left; reflexivity|]. rewrite !NZ, Bool.orb_false_r.
    destruct (Qltb_reflect (Qabs (snd e)) 0) as [X|X]; [pose proof (Qabs_nonneg (snd e)); lra|].
    destruct (IH (if Qltb mx (Qabs (snd e)) then Qabs (snd e) else mx)) as [b [E|(x & I & N)]]; exists b; [left; exact E|right; exists x; split; [right; exact I|exact N]]. }
  unfold scaleCut. destruct (L (crow c) 0) as [b [E|(e & I & N)]]; [rewrite E; reflexivity|]. rewrite Forall_forall in F. elim N. apply F, I.
Qed.
Print Assumptions no_tolerance_refuted.

(** ** The norm of a row. *)
Lemma sum_squares_spec m (v : packed) : forall i p, (forall k e, nth_error v k = Some e -> nth_error (m_elem m) (i + k) = Some (snd e)) ->
  exists q, sum_squares m i (length v) p = Some q /\ q == p + Qsumf (fun e => snd e * snd e) v.
Proof.
  induction v as [|e v IH]; intros i p H; cbn [length sum_squares]; [exists p; split; [reflexivity|rewrite Qsumf_nil; ring]|].
  pose proof (H 0%nat e eq_refl) as E. rewrite Nat.add_0_r in E. rewrite E.
  destruct (IH (Datatypes.S i) (p + snd e * snd e)) as (q & Q1 & Q2); [intros k x K; replace (Datatypes.S i + k)%nat with (i + Datatypes.S k)%nat by lia; exact (H (Datatypes.S k) x K)|].
  exists q. split; [exact Q1|]. rewrite Q2, Qsumf_cons. ring.
Qed.
(** For a matrix stored by rows, with or without gaps, this is the Euclidean norm of the row; there is none for a row beyond the last. *)
Theorem row_norm : forall m rows r, stored m rows -> getRowTwoNorm m r = option_map twoNorm (nth_error rows r).
Proof.
  intros m rows r (L1 & L2 & S). unfold getRowTwoNorm. destruct (nth_error rows r) as [v|] eqn:E.
  - destruct (S r v E) as (s & A & B & C). rewrite A, B. destruct (sum_squares_spec m v s 0 (fun k e K => proj2 (C k e K))) as (q & -> & Q). cbn [option_map]. f_equal. unfold twoNorm. f_equal.
    apply Qeq_eqR. rewrite Q. ring.
  - apply nth_error_None in E. rewrite <- L1 in E. apply nth_error_None in E. rewrite E. reflexivity.
Qed.
Print Assumptions row_norm.
(** Of a matrix stored by columns the answer for row 0 is the norm of column 0. *)
Theorem by_columns_refuted : exists m cols, stored m cols /\ map (map fst) cols = [[0%nat; 1%nat]; [1%nat]] /\ cols = [[(0%nat, 3); (1%nat, 4)]; [(1%nat, 7)]] /\
  getRowTwoNorm m 0 = Some 5%R /\ twoNorm [(0%nat, 3)] = 3%R.
Proof.
  exists {| m_start := [0; 2]%nat; m_length := [2; 1]%nat; m_index := [0; 1; 1]%nat; m_elem := [3; 4; 7] |}, [[(0%nat, 3); (1%nat, 4)]; [(1%nat, 7)]].
  split; [|split; [reflexivity|split; [reflexivity|split]]].
  - split; [reflexivity|split; [reflexivity|]]. intros j v H. destruct j as [|[|j]]; cbn in H; [| |destruct j; discriminate]; injection H as <-.
    + exists 0%nat. split; [reflexivity|split; [reflexivity|]]. intros k e K. destruct k as [|[|k]]; cbn in K; [| |destruct k; discriminate]; injection K as <-; split; reflexivity.
    + exists 2%nat. split; [reflexivity|split; [reflexivity|]]. intros k e K. destruct k as [|k]; cbn in K; [|destruct k; discriminate]; injection K as <-; split; reflexivity.
  - unfold getRowTwoNorm. cbn. f_equal. replace (Q2R (0 + 3 * 3 + 4 * 4)) with (5 * 5)%R by (unfold Q2R; cbn; Lra.lra). apply sqrt_square. Lra.lra.
  - unfold twoNorm. cbn. replace (Q2R (3 * 3 + 0)) with (3 * 3)%R by (unfold Q2R; cbn; Lra.lra). apply sqrt_square. Lra.lra.
Qed.
Print Assumptions by_columns_refuted.

(** ** The hypotheses can be met. *)
Example ex_log : exists lg, logs lg. Proof. exists true_log. exact true_log_logs. Qed.
Example ex_defined : exists c', scaleCut true_log EPS7 {| crow := [(0%nat, 9#1000); (3%nat, 3#10)]; crhs := - (2#1) |} = Some c'.
Proof. apply (defined_iff true_log EPS7 _ eq_refl). exists (9#1000). exists (0%nat, 9#1000). split; [left; reflexivity|split; reflexivity]. Qed.
Example ex_undefined : scaleCut true_log EPS7 {| crow := [(0%nat, 1#1000000000)]; crhs := 3 |} = None.
Proof. vm_compute. reflexivity. Qed.
Example ex_extremes : smallest EPS7 {| crow := [(0%nat, 9#1000); (3%nat, - (3#10))]; crhs := - (2#1) |} (9#1000) /\ largest EPS7 {| crow := [(0%nat, 9#1000); (3%nat, - (3#10))]; crhs := - (2#1) |} 2.
Proof.
  split; [split; [exists (0%nat, 9#1000); split; [left; reflexivity|split; reflexivity]|]|split; [right; reflexivity|split; [|vm_compute; discriminate]]];
    intros b (e & [<-|[<-|[]]] & -> & _); vm_compute; discriminate.
Qed.
Example ex_gaps : getRowTwoNorm {| m_start := [0; 4]%nat; m_length := [1; 2]%nat; m_index := [5; 0; 0; 0; 1; 2]%nat; m_elem := [1; 9; 9; 9; 3; 4] |} 1 = Some (twoNorm [(1%nat, 3); (2%nat, 4)]).
Proof. unfold getRowTwoNorm, twoNorm. cbn. f_equal. Qed.
