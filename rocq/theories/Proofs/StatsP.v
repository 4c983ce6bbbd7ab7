From Verif Require Import Model.Stats Spec.StatsSpec.
From Coq Require Import Reals List ZArith Lra Lia Psatz.
Import ListNotations.
Open Scope R_scope.

Definition upd s v := updateStatsBeforeFinalize s v (-1).

Lemma upd_eq s v : upd s v =
  mkStat (s_total s + v) (s_total s + v) (s_stddev s + v * v)
         (Rmin (s_min s) v) (Rmax (s_max s) v) (s_num s + 1)
         (if isZeroR v then s_nonzero s else s_nonzero s + 1)%Z.
Proof.
  unfold upd, updateStatsBeforeFinalize. cbn [Z.geb Z.compare].
  f_equal; field.
Qed.

Definition sumsq (l : list R) := Rsum (map (fun x => x * x) l).
Definition nnz (l : list R) : Z := Z.of_nat (length (filter (fun x => negb (isZeroR x)) l)).

Lemma Rsum_app a b : Rsum (a ++ b) = Rsum a + Rsum b.
Proof. unfold Rsum. induction a as [|x a IH]; cbn; [ring|]. rewrite IH. ring. Qed.
Lemma sumsq_app a b : sumsq (a ++ b) = sumsq a + sumsq b.
Proof. unfold sumsq. rewrite map_app. apply Rsum_app. Qed.
Lemma Rsum_nonneg l : (forall x, In x l -> 0 <= x) -> 0 <= Rsum l.
Proof.
  induction l as [|x l IH]; cbn; intro H; [lra|].
  pose proof (H x (or_introl eq_refl)).
  assert (0 <= Rsum l) by (apply IH; intros y Hy; apply H; right; exact Hy).
  unfold Rsum in *. lra.
Qed.
Lemma Rsum_sqdev m l :
  Rsum (map (fun x => (x - m) * (x - m)) l) = sumsq l - 2 * m * Rsum l + INR (length l) * m * m.
Proof.
  unfold sumsq. induction l as [|x l IH].
  - cbn. ring.
  - cbn [map]. change (Rsum (?a :: ?b)) with (a + Rsum b).
    rewrite IH. change (length (x :: l)) with (S (length l)). rewrite S_INR.
    change (Rsum (?a :: ?b)) with (a + Rsum b).  ring.
Qed.

Lemma INR_len_pos (A : Type) (l : list A) : l <> [] -> 0 < INR (length l).
Proof. destruct l as [|x l]; [congruence|]. intros _. apply lt_0_INR. cbn. lia. Qed.

Lemma variance_eq l : l <> [] ->
  variance l = sumsq l / INR (length l) - mean l * mean l.
Proof.
  intro H. pose proof (INR_len_pos _ _ H) as Hp.
  unfold variance. rewrite Rsum_sqdev. unfold mean. field. lra.
Qed.
Lemma variance_nonneg l : l <> [] -> 0 <= variance l.
Proof.
  intro H. pose proof (INR_len_pos _ _ H) as Hp. unfold variance.
  apply Rmult_le_pos; [|left; apply Rinv_0_lt_compat; exact Hp].
  apply Rsum_nonneg. intros x Hx. apply in_map_iff in Hx. destruct Hx as [y [<- _]].
  apply Rle_0_sqr.
Qed.

Lemma fold_upd l : forall s, fold_left upd l s =
  mkStat (s_total s + Rsum l) (match l with [] => s_avg s | _ => s_total s + Rsum l end)
         (s_stddev s + sumsq l)
         (fold_left Rmin l (s_min s)) (fold_left Rmax l (s_max s))
         (s_num s + Z.of_nat (length l)) (s_nonzero s + nnz l).
Proof.
  induction l as [|v l IH]; intro s.
  - cbn. destruct s; cbn. f_equal; try ring; unfold nnz; cbn; lia.
  - cbn [fold_left]. rewrite upd_eq, IH. cbn [s_total s_avg s_stddev s_min s_max s_num s_nonzero].
    unfold sumsq. cbn [map]. change (Rsum (?a :: ?b)) with (a + Rsum b).
    f_equal.
    + ring.
    + destruct l; [cbn; ring|ring].
    + ring.
    + cbn [length]. lia.
    + unfold nnz. cbn [filter]. destruct (isZeroR v); cbn [negb length]; lia.
Qed.

(** The finished statistics of a data list [l], with running min/max started at lo/hi. *)
Definition finished (hi lo : R) (l : list R) : stat :=
  mkStat (Rsum l) (mean l) (std_dev l) (fold_left Rmin l hi) (fold_left Rmax l lo)
         (Z.of_nat (length l)) (nnz l).

Lemma sqrt_if v : 0 <= v -> (if Rlt_dec 0 v then sqrt v else 0) = sqrt v.
Proof.
  intro H. destruct (Rlt_dec 0 v) as [|n]; [reflexivity|].
  assert (v = 0) by lra. subst. rewrite sqrt_0. reflexivity.
Qed.

Lemma finalize_eq hi lo l : l <> [] ->
  finalizeStats (mkStat (Rsum l) (Rsum l) (sumsq l) (fold_left Rmin l hi) (fold_left Rmax l lo)
                   (Z.of_nat (length l)) (nnz l)) (Z.of_nat (length l)) = finished hi lo l.
Proof.
  intro H. pose proof (INR_len_pos _ _ H) as Hp.
  unfold finalizeStats, finished. cbn [s_total s_avg s_stddev s_min s_max s_num s_nonzero].
  assert (Hz : (Z.of_nat (length l) >? 0)%Z = true).
  { destruct l; [congruence|]. cbn [length]. reflexivity. }
  rewrite Hz, <- INR_IZR_INZ.
  change (Rsum l / INR (length l)) with (mean l).
  rewrite <- variance_eq by exact H.
  rewrite sqrt_if by (apply variance_nonneg; exact H). reflexivity.
Qed.

Lemma nnz_app a b : nnz (a ++ b) = (nnz a + nnz b)%Z.
Proof. unfold nnz. rewrite filter_app, app_length. lia. Qed.

Lemma update_first_eq lo hi l : l <> [] ->
  updateAndFinalizeStats (initializeStats lo hi) l 0 = Some (finished hi lo l).
Proof.
  intro H. unfold updateAndFinalizeStats. destruct l as [|v l']; [congruence|].
  set (l := v :: l') in *. cbn [Z.eqb].
  change (fun s v => updateStatsBeforeFinalize s v (-1)) with upd.
  rewrite fold_upd. cbn [s_total s_avg s_stddev s_min s_max s_num s_nonzero initializeStats].
  f_equal. rewrite <- finalize_eq by exact H.
  replace (0 + Z.of_nat (length l))%Z with (Z.of_nat (length l)) by lia.
  f_equal. unfold l. f_equal; try ring; try lia.
Qed.

Lemma update_next_eq hi lo l1 l2 : l1 <> [] ->
  updateAndFinalizeStats (finished hi lo l1) l2 (Z.of_nat (length l1)) = Some (finished hi lo (l1 ++ l2)).
Proof.
  intro H1. unfold updateAndFinalizeStats.
  destruct l2 as [|v l2']; [rewrite app_nil_r; reflexivity|].
  set (l2 := v :: l2') in *.
  assert (Hz : (Z.of_nat (length l1) >? 0)%Z = true).
  { destruct l1; [congruence|]. reflexivity. }
  assert (Hz0 : (Z.of_nat (length l1) =? 0)%Z = false).
  { destruct l1; [congruence|]. reflexivity. }
  pose proof (INR_len_pos _ _ H1) as Hp.
  rewrite Hz0, Hz. unfold unfinalizeStats. rewrite Hz, Hz0.
  cbn [s_total s_avg s_stddev s_min s_max s_num s_nonzero finished].
  rewrite <- INR_IZR_INZ. change (Rsum l1 / INR (length l1)) with (mean l1).
  destruct (Rlt_dec (Rabs (mean l1 - mean l1)) (/ 1000)) as [_|n].
  2:{ exfalso. apply n. unfold Rminus. rewrite Rplus_opp_r, Rabs_R0. lra. }
  change (fun s v => updateStatsBeforeFinalize s v (-1)) with upd.
  rewrite fold_upd. cbn [s_total s_avg s_stddev s_min s_max s_num s_nonzero].
  assert (Hs : (std_dev l1 * std_dev l1 + mean l1 * mean l1) * INR (length l1) = sumsq l1).
  { unfold std_dev. rewrite sqrt_sqrt by (apply variance_nonneg; exact H1).
    rewrite variance_eq by exact H1. field. lra. }
  rewrite Hs.
  f_equal. rewrite <- (finalize_eq hi lo (l1 ++ l2)).
  2:{ destruct l1; [congruence|discriminate]. }
  rewrite !fold_left_app, Rsum_app, sumsq_app, nnz_app, app_length, Nat2Z.inj_add.
  unfold l2 at 2. cbv iota beta. reflexivity.
Qed.

Lemma Rmin_dec a b : Rmin a b = a \/ Rmin a b = b.
Proof. unfold Rmin. destruct (Rle_dec a b); auto. Qed.
Lemma Rmax_dec a b : Rmax a b = a \/ Rmax a b = b.
Proof. unfold Rmax. destruct (Rle_dec a b); auto. Qed.

Lemma fold_Rmin_spec l : forall a, fold_left Rmin l a <= a /\
  (forall x, In x l -> fold_left Rmin l a <= x) /\ (fold_left Rmin l a = a \/ In (fold_left Rmin l a) l).
Proof.
  induction l as [|v l IH]; intro a; cbn [fold_left].
  - split; [lra|]. split; [intros x []|left; reflexivity].
  - destruct (IH (Rmin a v)) as (H1 & H2 & H3).
    pose proof (Rmin_l a v). pose proof (Rmin_r a v).
    repeat split; [lra| |].
    + intros x [<-|Hx]; [lra|apply H2; exact Hx].
    + destruct H3 as [E|E]; [|right; right; exact E].
      destruct (Rmin_dec a v) as [E2|E2]; rewrite E, E2; [left; reflexivity|right; left; reflexivity].
Qed.
Lemma fold_Rmax_spec l : forall a, a <= fold_left Rmax l a /\
  (forall x, In x l -> x <= fold_left Rmax l a) /\ (fold_left Rmax l a = a \/ In (fold_left Rmax l a) l).
Proof.
  induction l as [|v l IH]; intro a; cbn [fold_left].
  - split; [lra|]. split; [intros x []|left; reflexivity].
  - destruct (IH (Rmax a v)) as (H1 & H2 & H3).
    pose proof (Rmax_l a v). pose proof (Rmax_r a v).
    repeat split; [lra| |].
    + intros x [<-|Hx]; [lra|apply H2; exact Hx].
    + destruct H3 as [E|E]; [|right; right; exact E].
      destruct (Rmax_dec a v) as [E2|E2]; rewrite E, E2; [left; reflexivity|right; left; reflexivity].
Qed.

Lemma finished_min hi lo l : l <> [] -> (forall x, In x l -> x <= hi) -> is_min (s_min (finished hi lo l)) l.
Proof.
  intros Hl H. cbn. destruct (fold_Rmin_spec l hi) as (H1 & H2 & H3). split; [|exact H2].
  destruct H3 as [E|E]; [|exact E].
  destruct l as [|v l]; [congruence|].
  left. apply Rle_antisym; [rewrite E; apply H; left; reflexivity|apply H2; left; reflexivity].
Qed.
Lemma finished_max hi lo l : l <> [] -> (forall x, In x l -> lo <= x) -> is_max (s_max (finished hi lo l)) l.
Proof.
  intros Hl H. cbn. destruct (fold_Rmax_spec l lo) as (H1 & H2 & H3). split; [|exact H2].
  destruct H3 as [E|E]; [|exact E].
  destruct l as [|v l]; [congruence|].
  left. apply Rle_antisym; [apply H2; left; reflexivity|rewrite E; apply H; left; reflexivity].
Qed.
