From Verif Require Import Prelude Model.Tolerance Model.LP Model.Disjunction Spec.LPSpec Spec.DisjSpec Proofs.ToleranceP.

Lemma feasible_add_row P r x : feasible (add_row_lp P r) x <-> feasible P x /\ sat_row r x.
Proof.
  unfold feasible, in_box, in_rows, sat_row. cbn [add_row_lp ncols nrows clo cup rows]. split.
  - intros [B R]. split; [split; [exact B|]|].
    + intros i Hi. specialize (R i ltac:(lia)). destruct (Nat.eqb_spec i (nrows P)); [lia|exact R].
    + specialize (R (nrows P) ltac:(lia)). rewrite Nat.eqb_refl in R. exact R.
  - intros [[B R] S]. split; [exact B|]. intros i Hi. destruct (Nat.eqb_spec i (nrows P)); [exact S|]. apply R. lia.
Qed.

Lemma add_row_dims P r : ncols (add_row_lp P r) = ncols P /\ clo (add_row_lp P r) = clo P /\ cup (add_row_lp P r) = cup P.
Proof. repeat split. Qed.

Lemma feasible_add_rows rs : forall P x,
  feasible (fold_left add_row_lp rs P) x <-> feasible P x /\ forall r, In r rs -> sat_row r x.
Proof.
  induction rs as [|r rs IH]; intros P x; cbn [fold_left].
  - split; [intro H; split; [exact H|intros ? []]|tauto].
  - rewrite IH, feasible_add_row. split.
    + intros [[A B] C]. split; [exact A|]. intros r' [<-|H]; [exact B|apply C, H].
    + intros [A B]. split; [split; [exact A|apply B; left; reflexivity]|intros r' H; apply B; right; exact H].
Qed.

Lemma change_row_sat c x : sat_row (change_row c) x <-> sat_change c x.
Proof.
  unfold sat_row, change_row, sat_change. cbn [rcoef rlo rup above below]. rewrite pdot_cons, pdot_nil. cbn [fst snd].
  destruct (bc_bound c <=? 0)%Z; split; intro H; try (destruct H as [H _]); try (split; [|exact I]); lra.
Qed.

Lemma feasible_change_rows cs : forall P x,
  feasible (fold_left (apply_change false) cs P) x <-> feasible P x /\ forall c, In c cs -> sat_change c x.
Proof.
  induction cs as [|c cs IH]; intros P x; cbn [fold_left].
  - split; [intro H; split; [exact H|intros ? []]|tauto].
  - rewrite IH. unfold apply_change at 1. rewrite feasible_add_row, change_row_sat. split.
    + intros [[A B] C]. split; [exact A|]. intros r' [<-|H]; [exact B|apply C, H].
    + intros [A B]. split; [split; [exact A|apply B; left; reflexivity]|intros r' H; apply B; right; exact H].
Qed.

Lemma set_bound_dims P c : ncols (set_bound P c) = ncols P /\ nrows (set_bound P c) = nrows P /\ rows (set_bound P c) = rows P.
Proof. unfold set_bound. destruct (bc_bound c <=? 0)%Z; repeat split. Qed.

(** Overwriting a bound keeps every point that respects the new bound. *)
Lemma set_bound_keeps P c x : feasible P x -> sat_change c x -> feasible (set_bound P c) x.
Proof.
  intros [B R] S. destruct (set_bound_dims P c) as (D1 & D2 & D3). split.
  - intros j Hj. rewrite D1 in Hj. specialize (B j Hj). unfold set_bound. unfold sat_change in S.
    destruct (bc_bound c <=? 0)%Z; cbn [clo cup]; destruct (Nat.eqb_spec j (bc_var c)); subst; cbn [above below]; tauto.
  - intros i Hi. rewrite D2 in Hi. rewrite D3. exact (R i Hi).
Qed.

Lemma set_bounds_keep cs : forall P x, feasible P x -> (forall c, In c cs -> sat_change c x) -> feasible (fold_left set_bound cs P) x.
Proof.
  induction cs as [|c cs IH]; intros P x F S; cbn [fold_left]; [exact F|].
  apply IH; [apply set_bound_keeps; [exact F|apply S; left; reflexivity]|intros c' H; apply S; right; exact H].
Qed.

(** Overwriting with a tighter bound is intersecting. *)
Lemma set_bound_tight P c x : (bc_var c < ncols P)%nat ->
  (if (bc_bound c <=? 0)%Z then above (clo P (bc_var c)) (bc_val c) else below (cup P (bc_var c)) (bc_val c)) ->
  (feasible (set_bound P c) x <-> feasible P x /\ sat_change c x).
Proof.
  intros Hv Ht. split; [|intros [A B]; apply set_bound_keeps; assumption].
  intros [B R]. destruct (set_bound_dims P c) as (D1 & D2 & D3).
  assert (S : sat_change c x).
  { specialize (B (bc_var c)). rewrite D1 in B. specialize (B Hv). unfold set_bound, sat_change in *.
    destruct (bc_bound c <=? 0)%Z; cbn [clo cup] in B; rewrite Nat.eqb_refl in B; cbn [above below] in B; apply B. }
  split; [|exact S]. split.
  - intros j Hj. specialize (B j). rewrite D1 in B. specialize (B Hj). unfold set_bound, sat_change in *.
    destruct (bc_bound c <=? 0)%Z; cbn [clo cup] in B; destruct (Nat.eqb_spec j (bc_var c)) as [E|E]; try exact B; subst j.
    + split; [|apply B]. destruct (clo P (bc_var c)); cbn [above] in *; [|exact I]. lra.
    + split; [apply B|]. destruct (cup P (bc_var c)); cbn [below] in *; [|exact I]. lra.
  - intros i Hi. specialize (R i). rewrite D2, D3 in R. exact (R Hi).
Qed.

Lemma tightening_step P c cs : tightening P (c :: cs) -> tightening (set_bound P c) cs.
Proof.
  intros [T1 T2]. inversion T2 as [|? ? F O]; subst. split; [|exact O].
  intros c' H. destruct (T1 c' (or_intror H)) as [V W]. destruct (set_bound_dims P c) as (D1 & _). rewrite D1.
  split; [exact V|]. rewrite Forall_forall in F. specialize (F c' H). unfold same_side, not_looser in F. unfold set_bound.
  destruct (bc_bound c <=? 0)%Z; destruct (bc_bound c' <=? 0)%Z; cbn [clo cup]; try exact W;
    destruct (Nat.eqb_spec (bc_var c') (bc_var c)) as [E|E]; try exact W; cbn [above below]; apply F; split; congruence.
Qed.

Lemma set_bounds_tight cs : forall P x, tightening P cs ->
  (feasible (fold_left set_bound cs P) x <-> feasible P x /\ forall c, In c cs -> sat_change c x).
Proof.
  induction cs as [|c cs IH]; intros P x T; cbn [fold_left].
  - split; [intro H; split; [exact H|intros ? []]|tauto].
  - rewrite IH by (apply tightening_step; exact T). destruct T as [T1 _].
    rewrite set_bound_tight by (apply (T1 c (or_introl eq_refl))). split.
    + intros [[A B] C]. split; [exact A|]. intros r' [<-|H]; [exact B|apply C, H].
    + intros [A B]. split; [split; [exact A|apply B; left; reflexivity]|intros r' H; apply B; right; exact H].
Qed.

Lemma set_bounds_ncols cs : forall P, ncols (fold_left set_bound cs P) = ncols P.
Proof.
  induction cs as [|c cs IH]; intro P; [reflexivity|]. cbn [fold_left]. rewrite IH. apply set_bound_dims.
Qed.
Lemma add_rows_ncols rs : forall P, ncols (fold_left add_row_lp rs P) = ncols P.
Proof. induction rs as [|c cs IH]; intro P; [reflexivity|]. cbn [fold_left]. rewrite IH. reflexivity. Qed.
Lemma apply_true cs P : fold_left (apply_change true) cs P = fold_left set_bound cs P.
Proof. reflexivity. Qed.
