(** C59: which objectives are tried during targeted cut generation. *)
From Verif Require Import Prelude Model.LP Model.Tolerance Model.SolverHelper Model.TightOnPoint Model.Schedule Spec.LPSpec Spec.ScheduleSpec
  Proofs.ToleranceP Properties.C46_ObjectiveUpdate Properties.C22_TightOnPoint Proofs.ScheduleP.
#[local] Open Scope Q_scope.

Lemma bump_nonzero v b : v <> 0%Z -> bump v b <> 0%Z.
Proof. unfold bump. destruct b; [|tauto]. destruct (Z.leb_spec 0 v); lia. Qed.
Lemma bump_tight v : bump v true <> 0%Z.
Proof. unfold bump. destruct (Z.leb_spec 0 v); lia. Qed.
Lemma bump_neg v b : (v < 0)%Z -> (bump v b < 0)%Z.
Proof. unfold bump. destruct b; [|tauto]. destruct (Z.leb_spec 0 v); lia. Qed.

Lemma nth_snoc {A} (l : list A) x k e : nth_error (l ++ [x]) k = Some e -> nth_error l k = Some e \/ (k = length l /\ e = x).
Proof.
  intro H. destruct (Nat.lt_ge_cases k (length l)).
  - left. rewrite nth_error_app1 in H by assumption. exact H.
  - right. rewrite nth_error_app2 in H by assumption. destruct (k - length l)%nat eqn:D; cbn [nth_error] in H.
    + split; [lia|congruence].
    + destruct n; discriminate.
Qed.
Lemma firstn_snoc {A} (l m : list A) k : (k <= length l)%nat -> firstn k (l ++ m) = firstn k l.
Proof. intro H. rewrite firstn_app. replace (k - length l)%nat with 0%nat by lia. cbn [firstn]. apply app_nil_r. Qed.
Lemma trace_ok_app E p0 new : forall tr, trace_ok E p0 tr ->
  (forall a e b, new = a ++ e :: b -> entry_ok E p0 (tr ++ a) e) -> trace_ok E p0 (tr ++ new).
Proof.
  intros tr T H k e N. destruct (Nat.lt_ge_cases k (length tr)) as [L|L].
  - rewrite nth_error_app1 in N by assumption. rewrite firstn_snoc by lia. apply T, N.
  - rewrite nth_error_app2 in N by assumption. destruct (nth_error_split _ _ N) as (a & b & EQ & LA).
    assert (FA : firstn k (tr ++ new) = tr ++ a).
    { rewrite firstn_app, (firstn_all2 tr) by assumption. f_equal. rewrite EQ, firstn_app, LA, Nat.sub_diag. cbn [firstn].
      rewrite app_nil_r. apply firstn_all2. lia. }
    rewrite FA. apply (H a e b EQ).
Qed.
Lemma had_snoc E sel tr e i : had_tight E sel (tr ++ [e]) i ->
  had_tight E sel tr i \/ (tr_kind e <> KBilinear /\ so_optimal (se_solve E (length tr)) = true /\ sel (se_solve E (length tr)) i = true).
Proof.
  intros (k & e' & N & B & OO & T). destruct (nth_snoc _ _ _ _ N) as [N'|[-> ->]]; [left; exists k, e'; auto|right; auto].
Qed.
Lemma failed_snoc E tr e r : failed_ray E (tr ++ [e]) r ->
  failed_ray E tr r \/ (tr_kind e = KRay /\ tr_index e = r /\ (so_code (se_solve E (length tr)) < 0)%Z).
Proof.
  intros (k & e' & N & B & OO & T). destruct (nth_snoc _ _ _ _ N) as [N'|[-> ->]]; [left; exists k, e'; auto|right; auto].
Qed.

Section Keep.
Variables (E : senv) (p0 : pst).
Definition counts_ok (tr : list tried) (s : sst) : Prop :=
  (forall r, had_tight E so_row tr r -> ss_row s r <> 0%Z) /\ (forall j, had_tight E so_lb tr j -> ss_clb s j <> 0%Z) /\
  (forall r, failed_ray E tr r -> (ss_row s r < 0)%Z).
Definition inv (s : sst) : Prop :=
  no_objective (se_tp E) (ss_p s) /\ same_bounds (ss_p s) p0 /\ trace_ok E p0 (ss_tr s) /\ counts_ok (ss_tr s) s.

Lemma counts_bump tr s e : counts_ok tr s -> (tr_kind e <> KRay) -> counts_ok (tr ++ [e]) (bump_all (se_solve E (length tr)) s).
Proof.
  intros (C1 & C2 & C3) K. repeat split.
  - intros r H. apply had_snoc in H. unfold bump_all. destruct (so_optimal (se_solve E (length tr))) eqn:O; cbn [ss_row].
    + destruct H as [H|(_ & _ & T)]; [apply bump_nonzero, C1, H|]. rewrite T. apply bump_tight.
    + destruct H as [H|(_ & T & _)]; [apply C1, H|discriminate].
  - intros r H. apply had_snoc in H. unfold bump_all. destruct (so_optimal (se_solve E (length tr))) eqn:O; cbn [ss_clb].
    + destruct H as [H|(_ & _ & T)]; [apply bump_nonzero, C2, H|]. rewrite T. apply bump_tight.
    + destruct H as [H|(_ & T & _)]; [apply C2, H|discriminate].
  - intros r H. apply failed_snoc in H. destruct H as [H|(X & _)]; [|congruence]. specialize (C3 r H). unfold bump_all.
    destruct (so_optimal _); cbn [ss_row]; [apply bump_neg|]; exact C3.
Qed.
Lemma counts_ray tr s e : counts_ok tr s -> tr_kind e = KRay -> ss_row s (tr_index e) = 0%Z ->
  let s' := bump_all (se_solve E (length tr)) s in
  counts_ok (tr ++ [e]) (if (so_code (se_solve E (length tr)) <? 0)%Z then with_row s' (upd (ss_row s') (tr_index e) (- (ss_row s' (tr_index e) + 1))%Z) else s').
Proof.
  intros (C1 & C2 & C3) K Z0 s'.
  assert (POS : (0 <= ss_row s' (tr_index e))%Z).
  { unfold s', bump_all. destruct (so_optimal _); cbn [ss_row]; rewrite Z0; [|lia]. unfold bump. destruct (so_row _ _); cbn; lia. }
  assert (R1 : forall r, had_tight E so_row (tr ++ [e]) r -> ss_row s' r <> 0%Z).
  { intros r H. apply had_snoc in H. unfold s', bump_all. destruct (so_optimal (se_solve E (length tr))) eqn:O; cbn [ss_row].
    + destruct H as [H|(_ & _ & T)]; [apply bump_nonzero, C1, H|]. rewrite T. apply bump_tight.
    + destruct H as [H|(_ & T & _)]; [apply C1, H|discriminate]. }
  assert (R2 : forall r, had_tight E so_lb (tr ++ [e]) r -> ss_clb s' r <> 0%Z).
  { intros r H. apply had_snoc in H. unfold s', bump_all. destruct (so_optimal (se_solve E (length tr))) eqn:O; cbn [ss_clb].
    + destruct H as [H|(_ & _ & T)]; [apply bump_nonzero, C2, H|]. rewrite T. apply bump_tight.
    + destruct H as [H|(_ & T & _)]; [apply C2, H|discriminate]. }
  assert (R3 : forall r, failed_ray E tr r -> (ss_row s' r < 0)%Z).
  { intros r H. specialize (C3 r H). unfold s', bump_all. destruct (so_optimal _); cbn [ss_row]; [apply bump_neg|]; exact C3. }
  destruct (Z.ltb_spec (so_code (se_solve E (length tr))) 0) as [N|N].
  - split; [|split].
    + intros r H. cbn [with_row ss_row]. unfold upd. destruct (Nat.eqb_spec r (tr_index e)) as [EQ|NE]; [lia|apply R1, H].
    + exact R2.
    + intros r H. cbn [with_row ss_row]. unfold upd. destruct (Nat.eqb_spec r (tr_index e)) as [EQ|NE]; [lia|].
      apply failed_snoc in H. destruct H as [H|(_ & X & _)]; [apply R3, H|congruence].
  - split; [exact R1|]. split; [exact R2|]. intros r H. apply failed_snoc in H. destruct H as [H|(_ & _ & X)]; [apply R3, H|lia].
Qed.
Lemma bump_frame a s : ss_p (bump_all a s) = ss_p s /\ ss_lo (bump_all a s) = ss_lo s /\ ss_tr (bump_all a s) = ss_tr s /\
  ss_code (bump_all a s) = ss_code s /\ ss_np (bump_all a s) = ss_np s /\ ss_nr (bump_all a s) = ss_nr s.
Proof. unfold bump_all. destruct (so_optimal a); repeat split. Qed.
Lemma not_abandon s : abandon E s = false -> se_limit E (length (ss_tr s)) = false.
Proof. intro H. apply Bool.orb_false_iff in H. apply H. Qed.
Lemma trace_ok_snoc tr e : trace_ok E p0 tr -> entry_ok E p0 tr e -> trace_ok E p0 (tr ++ [e]).
Proof.
  intros T H. apply trace_ok_app; [exact T|]. intros a e' b EQ. destruct a as [|x a]; cbn [app] in EQ.
  - injection EQ as <- _. rewrite app_nil_r. exact H.
  - injection EQ as _ EQ. destruct a; discriminate.
Qed.
Lemma counts_with_p tr s p : counts_ok tr s -> counts_ok tr (with_p s p). Proof. exact (fun H => H). Qed.

Lemma inv_allones s : inv s -> abandon E s = false -> inv (allOnesStep E s).
Proof.
  intros (Z & U & T & C) A. unfold allOnesStep, tryOne. cbv zeta.
  set (s1 := with_p s _). set (a := se_solve E (length (ss_tr s1))).
  destruct (bump_frame a s1) as (F1 & F2 & F3 & F4 & F5 & F6). unfold inv. cbn [with_p ss_p ss_tr].
  assert (T' : ss_tr s1 = ss_tr s) by reflexivity.
  split; [apply reset_all_zero|]. split; [intro i; rewrite F1; exact (U i)|]. rewrite F1, F2, F3, T'. split.
  - apply trace_ok_snoc; [exact T|]. split; [intros _; apply not_abandon, A|]. cbn [tr_kind tr_index tr_st]. split.
    + intros j Hj. unfold s1. cbn [with_p ss_p with_obj ps_obj].
      destruct (proj2 (set_constant (tp_ncols (se_tp E)) 1 (ps_obj (ss_p s))) None (or_introl eq_refl) j) as [K _]. rewrite (K Hj). reflexivity.
    + intro i. exact (U i).
  - assert (CC : counts_ok (ss_tr s ++ [{| tr_kind := KAllOnes; tr_index := 0; tr_st := ss_p s1; tr_lo := ss_lo s1 |}]) (bump_all a s1)).
    { unfold a. rewrite T'. apply counts_bump; [exact C|discriminate]. }
    exact CC.
Qed.
Lemma had_bil sel tr e n i : tr_kind e = KBilinear -> had_tight E sel (tr ++ repeat e n) i -> had_tight E sel tr i.
Proof.
  intros K (k & e' & N & B & O & T). exists k, e'. split; [|auto]. destruct (Nat.lt_ge_cases k (length tr)) as [L|L].
  - rewrite nth_error_app1 in N by assumption. exact N.
  - rewrite nth_error_app2 in N by assumption. apply nth_error_In, repeat_spec in N. congruence.
Qed.
Lemma failed_bil tr e n i : tr_kind e = KBilinear -> failed_ray E (tr ++ repeat e n) i -> failed_ray E tr i.
Proof.
  intros K (k & e' & N & B & O & T). exists k, e'. split; [|auto]. destruct (Nat.lt_ge_cases k (length tr)) as [L|L].
  - rewrite nth_error_app1 in N by assumption. exact N.
  - rewrite nth_error_app2 in N by assumption. apply nth_error_In, repeat_spec in N. congruence.
Qed.
Lemma inv_bilinear s : inv s -> inv (bilinearStep E s).
Proof.
  intros (Z & U & T & C1 & C2 & C3). unfold bilinearStep. cbv zeta. unfold inv. cbn [with_p with_trace ss_p ss_tr].
  split; [apply reset_all_zero|]. split; [intro i; exact (U i)|]. split; [|split; [|split]].
  - apply trace_ok_app; [exact T|]. intros a e b EQ.
    assert (IN : In e (repeat {| tr_kind := KBilinear; tr_index := 0; tr_st := ss_p s; tr_lo := ss_lo s |} (se_bil E)))
      by (rewrite EQ; apply in_or_app; right; left; reflexivity).
    apply repeat_spec in IN. subst e. split; [intro X; elim X; reflexivity|exact Logic.I].
  - intros r H. apply had_bil in H; [|reflexivity]. exact (C1 r H).
  - intros r H. apply had_bil in H; [|reflexivity]. exact (C2 r H).
  - intros r H. apply failed_bil in H; [|reflexivity]. exact (C3 r H).
Qed.
Lemma inv_counts s np nr : inv s -> inv (with_counts s np nr). Proof. exact (fun H => H). Qed.
Lemma inv_unit j s : inv s -> abandon E s = false -> ss_clb s j = 0%Z -> inv (unitStep E j s).
Proof.
  intros (Z & U & T & C) A Z0. unfold unitStep, tryOne. cbv zeta.
  set (s1 := with_p s _). set (a := se_solve E (length (ss_tr s1))).
  destruct (bump_frame a s1) as (F1 & F2 & F3 & F4 & F5 & F6).
  assert (T' : ss_tr s1 = ss_tr s) by reflexivity.
  set (s3 := if _ && _ then _ else _).
  set (e := {| tr_kind := KUnit; tr_index := j; tr_st := ss_p s1; tr_lo := ss_lo s1 |}).
  assert (P3 : ss_p s3 = ss_p s1 /\ ss_tr s3 = ss_tr s ++ [e] /\ ss_row s3 = ss_row (bump_all a s1) /\ ss_clb s3 = ss_clb (bump_all a s1)).
  { unfold s3. destruct (so_optimal a && _); cbn [with_lo ss_p ss_tr ss_row ss_clb]; rewrite F1, F2, F3, T'; repeat split. }
  destruct P3 as (P3 & T3 & R3 & L3). unfold inv. cbn [with_p ss_p ss_tr]. split; [|split; [|split]].
  - intros i Hi. cbn [with_obj ps_obj]. unfold upd. rewrite P3. destruct (Nat.eqb_spec i j) as [EQ|NE]; [reflexivity|].
    unfold s1. cbn [with_p ss_p with_obj ps_obj]. unfold upd. destruct (Nat.eqb_spec i j); [congruence|]. apply Z, Hi.
  - intro i. cbn [with_obj ps_up]. rewrite P3. exact (U i).
  - rewrite T3. apply trace_ok_snoc; [exact T|]. split; [intros _; apply not_abandon, A|]. cbn [tr_kind tr_index tr_st e]. split; [|split].
    + intros i Hi. unfold s1. cbn [with_p ss_p with_obj ps_obj]. unfold upd. rewrite Nat.eqb_sym.
      destruct (Nat.eqb_spec j i) as [EQ|NE]; [reflexivity|]. apply Z, Hi.
    + intro i. exact (U i).
    + intro H. destruct C as (_ & C2 & _). exact (C2 j H Z0).
  - assert (CC : counts_ok (ss_tr s ++ [e]) (bump_all a s1)).
    { unfold a. rewrite T'. apply counts_bump; [exact C|discriminate]. }
    rewrite T3. unfold counts_ok. cbn [with_p ss_row ss_clb]. rewrite R3, L3. exact CC.
Qed.
Lemma inv_ray row s : inv s -> abandon E s = false -> ss_row s row = 0%Z -> inv (rayStep E KRay row s).
Proof.
  intros (Z & U & T & C) A Z0. unfold rayStep, tryOne. cbv zeta.
  set (s1 := with_p (with_counts s (ss_np s) (ss_nr s + 1)) _). set (a := se_solve E (length (ss_tr s1))).
  destruct (bump_frame a s1) as (F1 & F2 & F3 & F4 & F5 & F6).
  assert (T' : ss_tr s1 = ss_tr s) by reflexivity.
  set (s2 := {| ss_p := ss_p (bump_all a s1) |}). set (s3 := if (ss_code s2 <? 0)%Z then _ else _).
  set (e := {| tr_kind := KRay; tr_index := row; tr_st := ss_p s1; tr_lo := ss_lo s1 |}).
  assert (C2 : ss_code s2 = so_code a) by reflexivity.
  assert (T2 : ss_tr s2 = ss_tr s ++ [e]) by (unfold s2; cbn [ss_tr]; rewrite F1, F2, F3, T'; reflexivity).
  assert (P3 : ss_p s3 = ss_p s1 /\ ss_tr s3 = ss_tr s ++ [e]).
  { unfold s3. destruct (ss_code s2 <? 0)%Z; cbn [with_row ss_p ss_tr]; rewrite T2; (split; [exact F1|reflexivity]). }
  destruct P3 as (P3 & T3). unfold inv. cbn [with_p ss_p ss_tr]. split; [|split; [|split]].
  - rewrite P3. apply reset_at_zero. apply add_on_zero, Z.
  - intro i. unfold reset_at. cbn [with_obj ps_up]. rewrite P3. exact (U i).
  - rewrite T3. apply trace_ok_snoc; [exact T|]. split; [intros _; apply not_abandon, A|]. cbn [tr_kind tr_index tr_st e]. split; [|split].
    + apply add_on_zero, Z.
    + intro i. exact (U i).
    + intro H. destruct C as (C1 & _). exact (C1 row H Z0).
  - pose proof (counts_ray (ss_tr s) s1 e C eq_refl Z0) as CC. cbv zeta in CC. cbn [tr_index e] in CC.
    rewrite T3. unfold counts_ok. cbn [with_p ss_row ss_clb]. unfold s3. rewrite C2. unfold a in *. rewrite T' in *.
    destruct (so_code (se_solve E (length (ss_tr s))) <? 0)%Z; exact CC.
Qed.
Lemma inv_ray2 row s : inv s -> abandon E s = false -> (0 <= ss_row s row)%Z -> inv (rayStep E KRay2 row s).
Proof.
  intros (Z & U & T & C) A Z0. unfold rayStep, tryOne. cbv zeta.
  set (s1 := with_p (with_counts s (ss_np s) (ss_nr s + 1)) _). set (a := se_solve E (length (ss_tr s1))).
  destruct (bump_frame a s1) as (F1 & F2 & F3 & F4 & F5 & F6).
  assert (T' : ss_tr s1 = ss_tr s) by reflexivity.
  set (e := {| tr_kind := KRay2; tr_index := row; tr_st := ss_p s1; tr_lo := ss_lo s1 |}).
  unfold inv. cbn [with_p ss_p ss_tr]. rewrite F1, F2, F3, T'. split; [|split; [|split]].
  - apply reset_at_zero. apply add_on_zero, Z.
  - intro i. exact (U i).
  - apply trace_ok_snoc; [exact T|]. split; [intros _; apply not_abandon, A|]. cbn [tr_kind tr_index tr_st e]. split; [|split].
    + apply add_on_zero, Z.
    + intro i. exact (U i).
    + intro H. destruct C as (_ & _ & C3). specialize (C3 row H). lia.
  - assert (CC : counts_ok (ss_tr s ++ [e]) (bump_all a s1)).
    { unfold a. rewrite T'. apply counts_bump; [exact C|discriminate]. }
    exact CC.
Qed.

Definition point_entry (h : pheur) (row : nat) (lo : nat -> option Q) (first : bool) (st : pst) : tried :=
  {| tr_kind := KPoint h first; tr_index := row; tr_st := st; tr_lo := lo |}.
Definition point_new (h : pheur) (row : nat) (lo : nat -> option Q) (sts : list pst) : list tried :=
  match sts with [] => [] | st :: r => point_entry h row lo true st :: map (point_entry h row lo false) r end.
Lemma point_new_length h row lo sts : length (point_new h row lo sts) = length sts.
Proof. destruct sts; [reflexivity|]. cbn [point_new length]. rewrite map_length. reflexivity. Qed.
Lemma fold_counts : forall new tr s, counts_ok tr s -> Forall (fun e => tr_kind e <> KRay) new ->
  counts_ok (tr ++ new) (fold_left (fun s j => bump_all (se_solve E j) s) (seq (length tr) (length new)) s).
Proof.
  induction new as [|e new IH]; intros tr s C F; cbn [length seq fold_left]; [rewrite app_nil_r; exact C|].
  inversion F as [|? ? F1 F2]; subst. pose proof (IH (tr ++ [e]) _ (counts_bump tr s e C F1) F2) as K.
  rewrite <- app_assoc, app_length in K. cbn [length app] in K. rewrite Nat.add_1_r in K. exact K.
Qed.
Lemma fold_shift k : forall n a s, fold_left (fun s j => bump_all (se_solve E (k + j)) s) (seq a n) s =
  fold_left (fun s j => bump_all (se_solve E j) s) (seq (k + a) n) s.
Proof. induction n as [|n IH]; intros a s; cbn [seq fold_left]; [reflexivity|]. rewrite IH, Nat.add_succ_r. reflexivity. Qed.
Lemma fold_frame (f : nat -> solved) : forall l s, let s' := fold_left (fun s j => bump_all (f j) s) l s in
  ss_p s' = ss_p s /\ ss_lo s' = ss_lo s /\ ss_tr s' = ss_tr s /\ ss_code s' = ss_code s /\ ss_np s' = ss_np s /\ ss_nr s' = ss_nr s.
Proof.
  induction l as [|j l IH]; intro s; cbn [fold_left]; cbv zeta; [repeat split|].
  destruct (IH (bump_all (f j) s)) as (A1 & A2 & A3 & A4 & A5 & A6). destruct (bump_frame (f j) s) as (B1 & B2 & B3 & B4 & B5 & B6).
  repeat split; congruence.
Qed.
(** What a call of findCutsTightOnPoint does. *)
Lemma point_call h row s : no_objective (se_tp E) (ss_p s) -> exists good s' sts, tightOnPoint E h row s = Some (good, s') /\
  ss_tr s' = ss_tr s ++ point_new h row (ss_lo s) sts /\ same_bounds (ss_p s') (ss_p s) /\ no_objective (se_tp E) (ss_p s') /\
  ss_lo s' = ss_lo s /\ ss_np s' = ss_np s /\ ss_nr s' = ss_nr s /\ ss_code s' = ss_code s /\
  (1 <= length sts <= Nat.max 1 (Z.to_nat (max_per_point (se_par E))))%nat /\
  (counts_ok (ss_tr s) s -> counts_ok (ss_tr s') s') /\
  (forall j, (S j < length sts)%nat -> se_limit E (length (ss_tr s) + S j) = false) /\
  (exists s0, hd_error sts = Some s0 /\ objective_is (se_tp E) (pval (tp_row (se_tp E) row)) s0 /\ same_bounds s0 (ss_p s)) /\
  Forall (fun s1 => ps_up s1 row = tp_lo (se_tp E) row /\ forall i, i <> row -> ps_up s1 i = ps_up (ss_p s) i) (tl sts).
Proof.
  intro Z. unfold tightOnPoint. cbv zeta.
  destruct (tight_on_point_restores (se_tp E) (ask_from E (length (ss_tr s)) row) row (se_mode E) (so_cands (se_solve E (length (ss_tr s))))
    (Z.to_nat (max_per_point (se_par E))) (ss_p s) Z) as (good & p' & sts & EQ & U & Z' & LEN & HD & TL & _).
  rewrite EQ. pose proof (findCuts_calm _ _ _ _ _ _ _ _ _ _ EQ) as CALM.
  pose proof (fold_frame (fun j => se_solve E (length (ss_tr s) + j)) (seq 0 (length sts)) s) as (F1 & F2 & F3 & F4 & F5 & F6).
  eexists good, _, sts. split; [reflexivity|]. cbn [with_trace with_p ss_tr ss_p ss_lo ss_np ss_nr ss_code].
  split; [reflexivity|]. split; [exact U|]. split; [exact Z'|]. split; [exact F2|]. split; [exact F5|]. split; [exact F6|]. split; [exact F4|].
  split; [exact LEN|]. split; [|split; [|split; [exact HD|exact TL]]].
  - intro C. pose proof (fold_counts (point_new h row (ss_lo s) sts) (ss_tr s) s C) as K.
    rewrite point_new_length in K. unfold point_new, point_entry in K.
    assert (FA : Forall (fun e => tr_kind e <> KRay) (match sts with [] => [] | st :: r =>
      {| tr_kind := KPoint h true; tr_index := row; tr_st := st; tr_lo := ss_lo s |} :: map (fun st0 => {| tr_kind := KPoint h false; tr_index := row; tr_st := st0; tr_lo := ss_lo s |}) r end)).
    { destruct sts as [|st r]; [constructor|]. constructor; [discriminate|]. apply Forall_forall. intros x Hx. apply in_map_iff in Hx.
      destruct Hx as (y & <- & _). discriminate. }
    specialize (K FA). rewrite <- (Nat.add_0_r (length (ss_tr s))) in K at 1. rewrite <- fold_shift in K. exact K.
  - intros j Hj. exact (CALM j Hj).
Qed.
Lemma map_split {A B} (f : A -> B) : forall l a e b, map f l = a ++ e :: b -> exists x, In x l /\ e = f x /\ (length a < length l)%nat.
Proof.
  intros l a e b EQ. assert (L : length (map f l) = length (a ++ e :: b)) by (rewrite EQ; reflexivity).
  rewrite map_length, app_length in L. cbn [length] in L.
  assert (IN : In e (map f l)) by (rewrite EQ; apply in_or_app; right; left; reflexivity).
  apply in_map_iff in IN. destruct IN as (x & <- & IN). exists x. split; [exact IN|]. split; [reflexivity|lia].
Qed.
Lemma inv_point h row s good s' : inv s -> abandon E s = false -> (h = TIGHT_POINTS -> ss_row s row = 0%Z) ->
  tightOnPoint E h row s = Some (good, s') -> inv s'.
Proof.
  intros (Z & U & T & C) A Z0 EQ. destruct (point_call h row s Z) as (g & s2 & sts & EQ2 & TR & U2 & Z2 & LO & NP & NR & CD & LEN & CNT & LIM & HD & TL).
  rewrite EQ in EQ2. injection EQ2 as <- <-. split; [exact Z2|]. split; [intro i; rewrite U2; apply U|]. split; [|apply CNT, C].
  rewrite TR. apply trace_ok_app; [exact T|]. intros a e b SP. destruct HD as (st & HD & OB & UB). destruct sts as [|st' r]; [discriminate|].
  injection HD as ->. cbn [point_new] in SP. cbn [tl] in TL. destruct a as [|x a]; cbn [app] in SP.
  - injection SP as <- _. rewrite app_nil_r. split; [intros _; apply not_abandon, A|]. cbn [tr_kind point_entry tr_index tr_st].
    split; [exact OB|]. split; [intro i; rewrite UB; apply U|]. intros HH H. destruct C as (C1 & _). exact (C1 row H (Z0 HH)).
  - injection SP as <- SP. apply map_split in SP. destruct SP as (st2 & IN & -> & LA). split.
    + intros _. rewrite app_length. cbn [length]. apply LIM. cbn [length]. lia.
    + cbn [tr_kind point_entry tr_index tr_st]. rewrite Forall_forall in TL. destruct (TL st2 IN) as [V1 V2]. split; [exact V1|].
      intros i Hi. rewrite (V2 i Hi). apply U.
Qed.
End Keep.

(** Whatever the solver answers, every solve during targeted cut generation starts before any limit is
    reached, has exactly the intended objective (no remnants of earlier ones) and the original row bounds (a
    point's row being an equation while further cuts tight on that point are sought); a point, unit vector or
    ray that was tight at an earlier optimal solve is not tried in the first pass; and a ray whose objective
    failed is never retried.  At the end, the objective is zero and the row bounds are the original ones. *)
Theorem schedule_entries : forall E p lo s, no_objective (se_tp E) p -> targetStrongAndDifferentCuts E p lo = Some s ->
  trace_ok E p (ss_tr s) /\ no_objective (se_tp E) (ss_p s) /\ same_bounds (ss_p s) p.
Proof.
  intros E p lo s Z H. assert (K : inv E p s); [|destruct K as (K1 & K2 & K3 & _); auto].
  refine (schedule_ind E (inv E p) _ _ _ _ _ _ _ p lo s _ H).
  - apply inv_allones.
  - apply inv_bilinear.
  - intros; assumption.
  - intros h row t good t' I0 A Z0 _ EQ. exact (inv_point E p h row t good t' I0 A Z0 EQ).
  - apply inv_unit.
  - apply inv_ray.
  - apply inv_ray2.
  - split; [exact Z|]. split; [intro; reflexivity|]. split; [|split; [|split]].
    + intros k e N. destruct k; discriminate.
    + intros r (k & e & N & _). destruct k; discriminate.
    + intros r (k & e & N & _). destruct k; discriminate.
    + intros r (k & e & N & _). destruct k; discriminate.
Qed.
Print Assumptions schedule_entries.

(** ** The lower bounds put on columns lose nothing. *)
Lemma honest_app E K tr new : honest E K (tr ++ new) -> honest E K tr.
Proof. intros H k e N. apply H. rewrite nth_error_app1; [exact N|]. apply nth_error_Some. congruence. Qed.
Lemma region_ext d K p q lo x : same_bounds p q -> region d K p lo x <-> region d K q lo x.
Proof. intro U. unfold region. split; intros (A & B & C); (split; [exact A|split; [|exact C]]); intros i Hi; specialize (B i Hi); specialize (U i); rewrite U in *; exact B. Qed.
Lemma ray_frame E k row t : exists e, ss_tr (rayStep E k row t) = ss_tr t ++ [e] /\ ss_lo (rayStep E k row t) = ss_lo t.
Proof.
  unfold rayStep, tryOne. cbv zeta. set (t1 := with_p (with_counts t (ss_np t) (ss_nr t + 1)) _). set (a := se_solve E (length (ss_tr t1))).
  destruct (bump_frame a t1) as (F1 & F2 & F3 & _). eexists. cbn [with_p ss_tr ss_lo].
  destruct k; try destruct (_ <? _)%Z; cbn [with_row ss_tr ss_lo]; rewrite F2, F3; split; reflexivity.
Qed.
Lemma inv_start E p lo : no_objective (se_tp E) p -> inv E p (start p lo).
Proof.
  intro Z. split; [exact Z|]. split; [intro; reflexivity|]. split; [|split; [|split]].
  - intros k e N. destruct k; discriminate.
  - intros r (k & e & N & _). destruct k; discriminate.
  - intros r (k & e & N & _). destruct k; discriminate.
  - intros r (k & e & N & _). destruct k; discriminate.
Qed.
(** If the optimal values reported for single columns are lower bounds on them, the PRLP has the same feasible
    points after targeted cut generation as before. *)
Theorem schedule_keeps_region : forall E K p lo s, no_objective (se_tp E) p -> targetStrongAndDifferentCuts E p lo = Some s ->
  honest E K (ss_tr s) -> forall x, region (se_tp E) K (ss_p s) (ss_lo s) x <-> region (se_tp E) K p lo x.
Proof.
  intros E K p lo s Z H.
  set (I := fun s : sst => inv E p s /\ (honest E K (ss_tr s) -> forall x, region (se_tp E) K p (ss_lo s) x <-> region (se_tp E) K p lo x)).
  assert (G : I s).
  { refine (schedule_ind E I _ _ _ _ _ _ _ p lo s _ H).
    - intros t [I1 I2] A. split; [apply inv_allones; assumption|]. unfold allOnesStep, tryOne. cbv zeta. cbn [with_p ss_tr ss_lo].
      match goal with |- context [bump_all ?a ?b] => destruct (bump_frame a b) as (F1 & F2 & F3 & _) end. rewrite F2, F3. cbn [with_p ss_tr ss_lo].
      intro HN. apply honest_app in HN. exact (I2 HN).
    - intros t [I1 I2]. split; [apply inv_bilinear; assumption|]. intro HN. apply honest_app in HN. exact (I2 HN).
    - intros; assumption.
    - intros h row t good t' [I1 I2] A Z0 _ EQ. split; [exact (inv_point E p h row t good t' I1 A Z0 EQ)|].
      destruct (point_call E h row t (proj1 I1)) as (g & s2 & sts & EQ2 & TR & U2 & Z2 & LO & _). rewrite EQ in EQ2. injection EQ2 as <- <-.
      rewrite TR, LO. intro HN. apply honest_app in HN. exact (I2 HN).
    - intros j t [I1 I2] A Z0. split; [apply inv_unit; assumption|]. unfold unitStep, tryOne. cbv zeta.
      set (t1 := with_p t _). set (a := se_solve E (length (ss_tr t1))). destruct (bump_frame a t1) as (F1 & F2 & F3 & _).
      set (e := {| tr_kind := KUnit; tr_index := j; tr_st := ss_p t1; tr_lo := ss_lo t1 |}).
      set (t3 := if _ && _ then _ else _).
      assert (P3 : ss_tr t3 = ss_tr t ++ [e] /\ (ss_lo t3 = ss_lo t \/ (so_optimal a = true /\ ss_lo t3 = upd (ss_lo t) j (Some (so_obj a)) /\
         (match ss_lo t j with None => True | Some l => l < so_sol a j end)))).
      { unfold t3. cbn [ss_lo]. rewrite F1, F2, F3. destruct (so_optimal a) eqn:O; cbn [andb].
        - destruct (match ss_lo t1 j with Some l => _ | None => true end) eqn:G0; cbn [with_lo ss_tr ss_lo]; (split; [reflexivity|]); [|left; reflexivity].
          right. split; [reflexivity|]. split; [reflexivity|]. change (ss_lo t1) with (ss_lo t) in G0. destruct (ss_lo t j) as [l|]; [|exact Logic.I].
          unfold greaterThanVal in G0. apply Qle_bool_iff in G0. unfold EPS7 in G0. lra.
        - split; [reflexivity|left; reflexivity]. }
      destruct P3 as (P3 & L3). cbn [with_p ss_tr ss_lo]. rewrite P3. intro HN.
      assert (HT : honest E K (ss_tr t)) by (apply honest_app in HN; exact HN).
      destruct L3 as [L3|(O & L3 & L4)]; rewrite L3; [exact (I2 HT)|].
      assert (NE0 : nth_error (ss_tr t ++ [e]) (length (ss_tr t)) = Some e) by (rewrite nth_error_app2, Nat.sub_diag by lia; reflexivity).
      destruct (HN (length (ss_tr t)) e NE0 eq_refl O) as [VAL MIN]. change (so_obj a == so_sol a j) in VAL.
      assert (HE : forall x, region (se_tp E) K p (ss_lo t) x -> so_obj a <= x j).
      { intros x R. refine (MIN x _). cbn [e tr_st tr_lo]. refine (proj2 (region_ext _ _ _ p _ _ _) R). intro i. exact (proj1 (proj2 I1) i). }
      intro x. rewrite <- (I2 HT x). split.
      + intros (R1 & R2 & R3). split; [exact R1|]. split; [exact R2|]. intros i Hi. specialize (R3 i Hi). unfold upd in R3.
        destruct (Nat.eqb_spec i j) as [EQ|NE]; [|exact R3]. subst i. cbn [above] in R3.
        destruct (ss_lo t j) as [l|]; [|exact Logic.I]. cbn [above]. rewrite VAL in R3. lra.
      + intros R. pose proof (HE x R) as B. destruct R as (R1 & R2 & R3). split; [exact R1|]. split; [exact R2|]. intros i Hi. unfold upd.
        destruct (Nat.eqb_spec i j) as [EQ|NE]; [subst i; exact B|apply R3, Hi].
    - intros row t [I1 I2] A Z0. split; [apply inv_ray; assumption|]. destruct (ray_frame E KRay row t) as (e & T & L). rewrite T, L.
      intro HN. apply honest_app in HN. exact (I2 HN).
    - intros row t [I1 I2] A Z0. split; [apply inv_ray2; assumption|]. destruct (ray_frame E KRay2 row t) as (e & T & L). rewrite T, L.
      intro HN. apply honest_app in HN. exact (I2 HN).
    - split; [apply inv_start, Z|]. intros _ x. reflexivity. }
  intros HN x. destruct G as [G1 G2]. rewrite <- (G2 HN x). apply region_ext. exact (proj1 (proj2 G1)).
Qed.
Print Assumptions schedule_keeps_region.

(** ** Order and number of the objectives. *)
Definition only (P : kind -> bool) (tr : list tried) : Prop := Forall (fun e => P (tr_kind e) = true) tr.
Definition is_allones k := match k with KAllOnes => true | _ => false end.
Definition is_bilinear k := match k with KBilinear => true | _ => false end.
Definition is_point (h : pheur) k := match k, h with
  | KPoint DISJ_LB _, DISJ_LB | KPoint TIGHT_POINTS _, TIGHT_POINTS | KPoint TIGHT_POINTS2 _, TIGHT_POINTS2 => true | _, _ => false end.
Definition is_unit k := match k with KUnit => true | _ => false end.
Definition is_ray k := match k with KRay => true | _ => false end.
Definition is_ray2 k := match k with KRay2 => true | _ => false end.
(** Solves made for points: each starts with a head, and each head has at most [m] solves. *)
Definition point_solves (h : pheur) (m : nat) (rows : list nat) (tr : list tried) : Prop :=
  only (is_point h) tr /\ subseq (heads tr) rows /\ (length tr <= length (heads tr) * m)%nat.

Lemma subseq_refl_nil {A} (l : list A) : subseq [] l. Proof. constructor. Qed.
Lemma heads_app a b : heads (a ++ b) = heads a ++ heads b.
Proof. unfold heads. rewrite filter_app, map_app. reflexivity. Qed.
Lemma heads_point h row lo sts : (1 <= length sts)%nat -> heads (point_new h row lo sts) = [row].
Proof.
  destruct sts as [|st r]; cbn [length]; [lia|]. intros _. cbn [point_new]. unfold heads. cbn [filter is_head point_entry tr_kind map tr_index].
  assert (EQ : filter is_head (map (point_entry h row lo false) r) = []) by (induction r as [|x r IH]; [reflexivity|exact IH]).
  rewrite EQ. reflexivity.
Qed.
Lemma only_point h row lo sts : only (is_point h) (point_new h row lo sts).
Proof.
  destruct sts as [|st r]; [constructor|]. constructor; [destruct h; reflexivity|]. apply Forall_forall. intros x Hx. apply in_map_iff in Hx.
  destruct Hx as (y & <- & _). destruct h; reflexivity.
Qed.
Definition frame_point (s t : sst) : Prop := ss_nr t = ss_nr s.

Lemma shape_points E : forall pts good s g t, no_objective (se_tp E) (ss_p s) -> loopPoints E good pts s = Some (g, t) ->
  exists new, ss_tr t = ss_tr s ++ new /\ point_solves TIGHT_POINTS (Nat.max 1 (Z.to_nat (max_per_point (se_par E)))) pts new /\
    ss_np t = (ss_np s + Z.of_nat (length (heads new)))%Z /\ (ss_np t <= Z.max (ss_np s) (sp_points (se_par E)))%Z /\ ss_nr t = ss_nr s /\
    no_objective (se_tp E) (ss_p t).
Proof.
  assert (DONE : forall pts s, no_objective (se_tp E) (ss_p s) -> exists new, ss_tr s = ss_tr s ++ new /\
    point_solves TIGHT_POINTS (Nat.max 1 (Z.to_nat (max_per_point (se_par E)))) pts new /\
    ss_np s = (ss_np s + Z.of_nat (length (heads new)))%Z /\ (ss_np s <= Z.max (ss_np s) (sp_points (se_par E)))%Z /\ ss_nr s = ss_nr s /\
    no_objective (se_tp E) (ss_p s)).
  { intros pts s Z. exists []. rewrite app_nil_r. repeat split; try constructor; try exact Z; cbn [heads filter map length]; lia. }
  induction pts as [|row r IH]; intros good s g t Z EQ; cbn [loopPoints] in EQ; [injection EQ as _ <-; apply DONE, Z|].
  destruct (_ || _); [injection EQ as _ <-; apply DONE, Z|]. destruct (Z.leb_spec (sp_points (se_par E)) (ss_np s)) as [B|B]; [injection EQ as _ <-; apply DONE, Z|].
  destruct (negb (ss_row s row =? 0)%Z).
  - destruct (IH _ _ _ _ Z EQ) as (new & T & (P1 & P2 & P3) & R). exists new. split; [exact T|]. split; [|exact R].
    split; [exact P1|]. split; [apply SubSkip, P2|exact P3].
  - destruct (point_call E TIGHT_POINTS row (with_counts s (ss_np s + 1) (ss_nr s)) Z) as (good' & s' & sts & EQ2 & TR & U & Z' & LO & NP & NR & CD & LEN & _).
    rewrite EQ2 in EQ. destruct (IH _ _ _ _ Z' EQ) as (new & T & (P1 & P2 & P3) & N1 & N2 & N3 & N4).
    cbn [with_counts ss_np ss_nr ss_tr ss_lo] in *.
    exists (point_new TIGHT_POINTS row (ss_lo s) sts ++ new). rewrite T, TR, <- app_assoc. split; [reflexivity|].
    rewrite heads_app, heads_point by lia. split; [|split; [|split; [|split]]].
    + split; [|split].
      * apply Forall_app. split; [apply only_point|exact P1].
      * rewrite heads_app, heads_point by lia. apply SubTake, P2.
      * rewrite heads_app, heads_point, app_length, point_new_length by lia. cbn [app length]. lia.
    + cbn [app length]. lia.
    + lia.
    + congruence.
    + exact N4.
Qed.
Lemma shape_points2 E lb : forall pts good s g t, no_objective (se_tp E) (ss_p s) -> loopPoints2 E lb good pts s = Some (g, t) ->
  exists new, ss_tr t = ss_tr s ++ new /\
    point_solves TIGHT_POINTS2 (Nat.max 1 (Z.to_nat (max_per_point (se_par E)))) (filter (fun r => negb (Nat.eqb r lb)) pts) new /\
    ss_np t = (ss_np s + Z.of_nat (length (heads new)))%Z /\ (ss_np t <= Z.max (ss_np s) (sp_points (se_par E)))%Z /\ ss_nr t = ss_nr s /\
    no_objective (se_tp E) (ss_p t).
Proof.
  assert (DONE : forall pts s, no_objective (se_tp E) (ss_p s) -> exists new, ss_tr s = ss_tr s ++ new /\
    point_solves TIGHT_POINTS2 (Nat.max 1 (Z.to_nat (max_per_point (se_par E)))) pts new /\
    ss_np s = (ss_np s + Z.of_nat (length (heads new)))%Z /\ (ss_np s <= Z.max (ss_np s) (sp_points (se_par E)))%Z /\ ss_nr s = ss_nr s /\
    no_objective (se_tp E) (ss_p s)).
  { intros pts s Z. exists []. rewrite app_nil_r. repeat split; try constructor; try exact Z; cbn [heads filter map length]; lia. }
  induction pts as [|row r IH]; intros good s g t Z EQ; cbn [loopPoints2] in EQ; [injection EQ as _ <-; apply DONE, Z|].
  destruct (_ || _); [injection EQ as _ <-; apply DONE, Z|]. destruct (Z.leb_spec (sp_points (se_par E)) (ss_np s)) as [B|B]; [injection EQ as _ <-; apply DONE, Z|].
  assert (SK : forall new, subseq (heads new) (filter (fun r => negb (Nat.eqb r lb)) r) -> subseq (heads new) (filter (fun r => negb (Nat.eqb r lb)) (row :: r))).
  { intros new H. cbn [filter]. destruct (negb (Nat.eqb row lb)); [apply SubSkip|]; exact H. }
  destruct (ss_row s row <? 0)%Z.
  - destruct (IH _ _ _ _ Z EQ) as (new & T & (P1 & P2 & P3) & R). exists new. split; [exact T|]. split; [|exact R].
    split; [exact P1|]. split; [apply SK, P2|exact P3].
  - destruct (Nat.eqb row lb) eqn:LB.
    + destruct (IH _ _ _ _ Z EQ) as (new & T & (P1 & P2 & P3) & R). exists new. split; [exact T|]. split; [|exact R].
      split; [exact P1|]. split; [apply SK, P2|exact P3].
    + destruct (point_call E TIGHT_POINTS2 row (with_counts s (ss_np s + 1) (ss_nr s)) Z) as (good' & s' & sts & EQ2 & TR & U & Z' & LO & NP & NR & CD & LEN & _).
      rewrite EQ2 in EQ. destruct (IH _ _ _ _ Z' EQ) as (new & T & (P1 & P2 & P3) & N1 & N2 & N3 & N4).
      cbn [with_counts ss_np ss_nr ss_tr ss_lo] in *.
      exists (point_new TIGHT_POINTS2 row (ss_lo s) sts ++ new). rewrite T, TR, <- app_assoc. split; [reflexivity|].
      rewrite heads_app, heads_point by lia. split; [|split; [|split; [|split]]].
      * split; [|split].
        -- apply Forall_app. split; [apply only_point|exact P1].
        -- cbn [filter]. rewrite heads_app, heads_point, LB by lia. apply SubTake, P2.
        -- rewrite heads_app, heads_point, app_length, point_new_length by lia. cbn [app length]. lia.
      * cbn [app length]. lia.
      * lia.
      * congruence.
      * exact N4.
Qed.
Lemma unit_shape E j s : exists e, ss_tr (unitStep E j s) = ss_tr s ++ [e] /\ tr_kind e = KUnit /\ tr_index e = j /\
  ss_np (unitStep E j s) = ss_np s /\ ss_nr (unitStep E j s) = ss_nr s.
Proof.
  unfold unitStep, tryOne. cbv zeta. set (t1 := with_p s _). set (a := se_solve E (length (ss_tr t1))).
  destruct (bump_frame a t1) as (F1 & F2 & F3 & F4 & F5 & F6). cbn [with_p ss_tr ss_np ss_nr].
  destruct (so_optimal a && _); cbn [with_lo ss_tr ss_np ss_nr]; rewrite F3, F5, F6; eexists; (split; [reflexivity|]); repeat split.
Qed.
Lemma shape_units E : forall dirs n s g t, loopUnits E dirs n s = Some (g, t) -> exists new, ss_tr t = ss_tr s ++ new /\
  only is_unit new /\ subseq (map tr_index new) dirs /\ (n + Z.of_nat (length new) <= Z.max n (max_units (se_par E) (tp_ncols (se_tp E))))%Z /\
  ss_np t = ss_np s /\ ss_nr t = ss_nr s.
Proof.
  assert (DONE : forall dirs n s, exists new, ss_tr s = ss_tr s ++ new /\ only is_unit new /\ subseq (map tr_index new) dirs /\
    (n + Z.of_nat (length new) <= Z.max n (max_units (se_par E) (tp_ncols (se_tp E))))%Z /\ ss_np s = ss_np s /\ ss_nr s = ss_nr s).
  { intros. exists []. rewrite app_nil_r. repeat split; try constructor. cbn [length]. lia. }
  induction dirs as [|j r IH]; intros n s g t EQ; cbn [loopUnits] in EQ; [injection EQ as _ <-; apply DONE|].
  destruct (Z.leb_spec (max_units (se_par E) (tp_ncols (se_tp E))) n) as [B|B]; [injection EQ as _ <-; apply DONE|].
  destruct (abandon E s); [injection EQ as _ <-; apply DONE|]. destruct (negb _).
  - destruct (IH _ _ _ _ EQ) as (new & T & P1 & P2 & R). exists new. repeat split; try assumption; try apply R. apply SubSkip, P2.
  - destruct (IH _ _ _ _ EQ) as (new & T & P1 & P2 & P3 & P4 & P5). destruct (unit_shape E j s) as (e & T1 & K & X & N1 & N2).
    exists (e :: new). rewrite T, T1, <- app_assoc. split; [reflexivity|]. split; [constructor; [rewrite K; reflexivity|exact P1]|].
    cbn [map length]. rewrite X. split; [apply SubTake, P2|]. split; [lia|]. split; congruence.
Qed.
Lemma ray_shape E k row s : exists e, ss_tr (rayStep E k row s) = ss_tr s ++ [e] /\ tr_kind e = k /\ tr_index e = row /\
  ss_np (rayStep E k row s) = ss_np s /\ ss_nr (rayStep E k row s) = (ss_nr s + 1)%Z /\
  (no_objective (se_tp E) (ss_p s) -> no_objective (se_tp E) (ss_p (rayStep E k row s))).
Proof.
  unfold rayStep, tryOne. cbv zeta. set (t1 := with_p (with_counts s (ss_np s) (ss_nr s + 1)) _). set (a := se_solve E (length (ss_tr t1))).
  destruct (bump_frame a t1) as (F1 & F2 & F3 & F4 & F5 & F6). cbn [with_p ss_tr ss_np ss_nr ss_p].
  assert (G : forall u, u = ss_p t1 -> no_objective (se_tp E) (ss_p s) -> no_objective (se_tp E) (reset_at (se_tp E) (tp_row (se_tp E) row) u)).
  { intros u -> Z. apply reset_at_zero. apply add_on_zero, Z. }
  destruct k; try destruct (_ <? _)%Z; cbn [with_row ss_tr ss_np ss_nr ss_p]; rewrite F3, F5, F6; eexists; (split; [reflexivity|]);
    (split; [reflexivity|]); (split; [reflexivity|]); (split; [reflexivity|]); (split; [reflexivity|]); apply G, F1.
Qed.
Lemma shape_rays E : forall rays s g t, loopRays E rays s = Some (g, t) -> exists new, ss_tr t = ss_tr s ++ new /\
  only is_ray new /\ subseq (map tr_index new) rays /\ ss_nr t = (ss_nr s + Z.of_nat (length new))%Z /\
  (ss_nr t <= Z.max (ss_nr s) (max_rays (se_par E) (length (rayIndex E))))%Z /\
  ss_np t = ss_np s /\ (no_objective (se_tp E) (ss_p s) -> no_objective (se_tp E) (ss_p t)).
Proof.
  assert (DONE : forall rays s, exists new, ss_tr s = ss_tr s ++ new /\ only is_ray new /\ subseq (map tr_index new) rays /\
    ss_nr s = (ss_nr s + Z.of_nat (length new))%Z /\ (ss_nr s <= Z.max (ss_nr s) (max_rays (se_par E) (length (rayIndex E))))%Z /\ ss_np s = ss_np s /\
    (no_objective (se_tp E) (ss_p s) -> no_objective (se_tp E) (ss_p s))).
  { intros. exists []. rewrite app_nil_r. cbn [length map]. split; [reflexivity|]. split; [constructor|]. split; [constructor|]. repeat split; try lia. trivial. }
  induction rays as [|row r IH]; intros s g t EQ; cbn [loopRays] in EQ; [injection EQ as _ <-; apply DONE|].
  destruct (Z.leb_spec (max_rays (se_par E) (length (rayIndex E))) (ss_nr s)) as [B|B]; [injection EQ as _ <-; apply DONE|].
  destruct (abandon E s); [injection EQ as _ <-; apply DONE|]. destruct (negb _).
  - destruct (IH _ _ _ EQ) as (new & T & P1 & P2 & R). exists new. split; [exact T|]. split; [exact P1|]. split; [apply SubSkip, P2|exact R].
  - destruct (IH _ _ _ EQ) as (new & T & P1 & P2 & P3 & P4 & P5 & P6). destruct (ray_shape E KRay row s) as (e & T1 & K & X & N1 & N2 & N3).
    exists (e :: new). rewrite T, T1, <- app_assoc. split; [reflexivity|]. split; [constructor; [rewrite K; reflexivity|exact P1]|].
    cbn [map length]. rewrite X. split; [apply SubTake, P2|]. split; [lia|]. split; [lia|]. split; [congruence|]. intro Z. apply P6, N3, Z.
Qed.
Lemma shape_rays2 E : forall rays s g t, loopRays2 E rays s = Some (g, t) -> exists new, ss_tr t = ss_tr s ++ new /\
  only is_ray2 new /\ subseq (map tr_index new) rays /\ ss_nr t = (ss_nr s + Z.of_nat (length new))%Z /\
  (ss_nr t <= Z.max (ss_nr s) (max_rays (se_par E) (length (rayIndex E))))%Z /\ ss_np t = ss_np s.
Proof.
  assert (DONE : forall rays s, exists new, ss_tr s = ss_tr s ++ new /\ only is_ray2 new /\ subseq (map tr_index new) rays /\
    ss_nr s = (ss_nr s + Z.of_nat (length new))%Z /\ (ss_nr s <= Z.max (ss_nr s) (max_rays (se_par E) (length (rayIndex E))))%Z /\ ss_np s = ss_np s).
  { intros. exists []. rewrite app_nil_r. cbn [length map]. split; [reflexivity|]. split; [constructor|]. split; [constructor|]. repeat split; lia. }
  induction rays as [|row r IH]; intros s g t EQ; cbn [loopRays2] in EQ; [injection EQ as _ <-; apply DONE|].
  destruct (abandon E s); [injection EQ as _ <-; apply DONE|].
  destruct (Z.leb_spec (max_rays (se_par E) (length (rayIndex E))) (ss_nr s)) as [B|B]; [injection EQ as _ <-; apply DONE|].
  destruct (_ <? _)%Z.
  - destruct (IH _ _ _ EQ) as (new & T & P1 & P2 & R). exists new. split; [exact T|]. split; [exact P1|]. split; [apply SubSkip, P2|exact R].
  - destruct (IH _ _ _ EQ) as (new & T & P1 & P2 & P3 & P4 & P5). destruct (ray_shape E KRay2 row s) as (e & T1 & K & X & N1 & N2 & _).
    exists (e :: new). rewrite T, T1, <- app_assoc. split; [reflexivity|]. split; [constructor; [rewrite K; reflexivity|exact P1]|].
    cbn [map length]. rewrite X. split; [apply SubTake, P2|]. split; [lia|]. split; [lia|]. congruence.
Qed.

(** The solves come in this order, within these numbers: at most one all-ones objective; the bilinear
    procedure; the first point; points 2 to next-to-last; unit vectors, each at most once, up to their budget;
    rays, each at most once; all points but the first again; rays again, each at most once.  The two point
    phases together make at most USE_TIGHT_POINTS calls, the two ray phases at most the ray budget, and
    a call for a point makes at most max(1, budget per point) solves. *)
Definition shape (E : senv) (tr : list tried) : Prop :=
  let P := se_par E in let m := Nat.max 1 (Z.to_nat (max_per_point P)) in
  exists ones bil first pts units rays pts2 rays2,
    tr = ones ++ bil ++ first ++ pts ++ units ++ rays ++ pts2 ++ rays2 /\
    only is_allones ones /\ (length ones <= 1)%nat /\ (sp_allones P <> 1%Z -> ones = []) /\
    only is_bilinear bil /\ (sp_bilinear P < 1 -> bil = [])%Z /\
    point_solves DISJ_LB m (firstn 1 (pointIndex E)) first /\ (sp_disjlb P <= 0 -> first = [])%Z /\
    point_solves TIGHT_POINTS m (removelast (tl (pointIndex E))) pts /\
    only is_unit units /\ subseq (map tr_index units) (se_dirs E) /\
    (Z.of_nat (length units) <= Z.max 0 (max_units P (tp_ncols (se_tp E))))%Z /\
    only is_ray rays /\ subseq (map tr_index rays) (rayIndex E) /\
    point_solves TIGHT_POINTS2 m (filter (fun r => negb (Nat.eqb r (hd 0%nat (pointIndex E)))) (pointIndex E)) pts2 /\
    (Z.of_nat (length (heads pts) + length (heads pts2)) <= Z.max 0 (sp_points P))%Z /\
    only is_ray2 rays2 /\ subseq (map tr_index rays2) (rayIndex E) /\
    (Z.of_nat (length rays + length rays2) <= Z.max 0 (max_rays P (length (rayIndex E))))%Z.
Definition upto (E : senv) (n : nat) (s : sst) : Prop :=
  let P := se_par E in let m := Nat.max 1 (Z.to_nat (max_per_point P)) in
  no_objective (se_tp E) (ss_p s) /\
  exists ones bil first pts units rays pts2 rays2,
    ss_tr s = ones ++ bil ++ first ++ pts ++ units ++ rays ++ pts2 ++ rays2 /\
    (only is_allones ones /\ (length ones <= 1)%nat /\ (sp_allones P <> 1%Z -> ones = [])) /\
    (only is_bilinear bil /\ (sp_bilinear P < 1 -> bil = [])%Z) /\
    (point_solves DISJ_LB m (firstn 1 (pointIndex E)) first /\ (sp_disjlb P <= 0 -> first = [])%Z) /\
    point_solves TIGHT_POINTS m (removelast (tl (pointIndex E))) pts /\
    (only is_unit units /\ subseq (map tr_index units) (se_dirs E) /\
     (Z.of_nat (length units) <= Z.max 0 (max_units P (tp_ncols (se_tp E))))%Z) /\
    (only is_ray rays /\ subseq (map tr_index rays) (rayIndex E)) /\
    point_solves TIGHT_POINTS2 m (filter (fun r => negb (Nat.eqb r (hd 0%nat (pointIndex E)))) (pointIndex E)) pts2 /\
    (only is_ray2 rays2 /\ subseq (map tr_index rays2) (rayIndex E)) /\
    (ss_np s = Z.of_nat (length (heads pts) + length (heads pts2)) /\ (ss_np s <= Z.max 0 (sp_points P))%Z) /\
    (ss_nr s = Z.of_nat (length rays + length rays2) /\ (ss_nr s <= Z.max 0 (max_rays P (length (rayIndex E))))%Z) /\
    ((n < 2)%nat -> bil = []) /\ ((n < 3)%nat -> first = []) /\ ((n < 4)%nat -> pts = []) /\ ((n < 5)%nat -> units = []) /\
    ((n < 6)%nat -> rays = []) /\ ((n < 7)%nat -> pts2 = []) /\ ((n < 8)%nat -> rays2 = []).
Lemma upto_mono E n m s : (n <= m)%nat -> upto E n s -> upto E m s.
Proof.
  intros L (Z & o & b & f & p & u & r & p2 & r2 & T & A1 & A2 & A3 & A4 & A5 & A6 & A7 & A8 & A9 & A10 & B2 & B3 & B4 & B5 & B6 & B7 & B8).
  split; [exact Z|]. exists o, b, f, p, u, r, p2, r2. split; [exact T|].
  repeat (match goal with |- _ /\ _ => split end; [first [assumption | intro; first [apply B2|apply B3|apply B4|apply B5|apply B6|apply B7|apply B8]; lia]|]).
  intro; apply B8; lia.
Qed.
Lemma upto_start E p lo : no_objective (se_tp E) p -> upto E 1 (start p lo).
Proof.
  intro Z. split; [exact Z|]. exists [], [], [], [], [], [], [], []. split; [reflexivity|].
  assert (PS : forall h m l, point_solves h m l []) by (intros; split; [constructor|split; [constructor|cbn; lia]]).
  split; [split; [constructor|split; [cbn; lia|trivial]]|]. split; [split; [constructor|trivial]|]. split; [split; [apply PS|trivial]|].
  split; [apply PS|]. split; [split; [constructor|split; [constructor|cbn [length]; lia]]|]. split; [split; constructor|]. split; [apply PS|].
  split; [split; constructor|]. cbn [start ss_np ss_nr heads filter map length Nat.add Z.of_nat]. split; [lia|]. split; [lia|]. repeat split; trivial.
Qed.

Ltac opened H := destruct H as (Z & o & b & f & p & u & r & p2 & r2 & T & (A1 & A1' & A1'') & (A2 & A2') & (A3 & A3') & A4 & (A5 & A5' & A5'') & (A6 & A6') & A7 &
    (A8 & A8') & (A9 & A9') & (A10 & A10') & B2 & B3 & B4 & B5 & B6 & B7 & B8).
Ltac wipe B := let X := fresh in assert (X := B ltac:(lia)); clear B; subst.
Ltac crush := repeat (match goal with |- _ /\ _ => split end); try assumption; try (intro; lia); try (intros; lia); auto.

Lemma st_allones E s g t : ss_tr s = [] -> upto E 1 s -> blockAllOnes E s = Some (g, t) -> upto E 1 t.
Proof.
  intros N H EQ. unfold blockAllOnes in EQ. destruct (Z.eqb_spec (sp_allones (se_par E)) 1) as [Y|Y]; injection EQ as _ <-; [|exact H].
  opened H. unfold tryOne. cbv zeta. set (x := with_p s _). set (a := se_solve E (length (ss_tr x))).
  destruct (bump_frame a x) as (F1 & F2 & F3 & F4 & F5 & F6).
  unfold upto. cbn [with_p ss_p ss_tr ss_np ss_nr]. rewrite F1, F2, F3, F5, F6. unfold x. cbn [with_p ss_p ss_tr ss_np ss_nr]. split; [apply reset_all_zero|].
  rewrite N in T |- *. symmetry in T. repeat (apply app_eq_nil in T; destruct T as [? T]). subst. cbn [app].
  eexists [_], [], [], [], [], [], [], []. split; [reflexivity|]. crush. repeat constructor.
Qed.
Lemma st_bilinear E s g t : upto E 1 s -> blockBilinear E s = Some (g, t) -> upto E 2 t.
Proof.
  intros H EQ. unfold blockBilinear in EQ. destruct (Z.leb_spec 1 (sp_bilinear (se_par E))) as [Y|Y]; injection EQ as _ <-; [|apply (upto_mono E 1); [lia|exact H]].
  opened H. unfold upto. cbn [with_p with_trace ss_p ss_tr ss_np ss_nr]. split; [apply reset_all_zero|].
  wipe B2. rewrite app_nil_l in T.
  wipe B3. wipe B4. wipe B5. wipe B6. wipe B7. wipe B8.
  exists o, (repeat {| tr_kind := KBilinear; tr_index := 0; tr_st := ss_p s; tr_lo := ss_lo s |} (se_bil E)), [], [], [], [], [], [].
  rewrite T, !app_nil_r. split; [reflexivity|]. crush.
  apply Forall_forall. intros x Hx. apply repeat_spec in Hx. subst x. reflexivity.
Qed.
Lemma st_disjlb E lb rest s g t : pointIndex E = lb :: rest -> upto E 2 s -> blockDisjLB E lb s = Some (g, t) -> upto E 3 t.
Proof.
  intros PI H EQ. unfold blockDisjLB in EQ. destruct (Z.ltb_spec 0 (sp_disjlb (se_par E))) as [Y|Y]; [|injection EQ as _ <-; apply (upto_mono E 2); [lia|exact H]].
  opened H. destruct (point_call E DISJ_LB lb s Z) as (good' & s' & sts & EQ2 & TR & U & Z' & LO & NP & NR & CD & LEN & _). rewrite EQ2 in EQ. injection EQ as _ <-.
  split; [exact Z'|]. exists o, b, (point_new DISJ_LB lb (ss_lo s) sts), p, u, r, p2, r2. rewrite TR, T, NP, NR.
  wipe B3. wipe B4. wipe B5. wipe B6. wipe B7. wipe B8. rewrite !app_nil_r. split; [rewrite app_assoc; reflexivity|].
  assert (PS : point_solves DISJ_LB (Nat.max 1 (Z.to_nat (max_per_point (se_par E)))) (firstn 1 (pointIndex E)) (point_new DISJ_LB lb (ss_lo s) sts)).
  { split; [apply only_point|]. rewrite heads_point, point_new_length, PI by lia. split; [cbn [firstn]; apply SubTake; constructor|cbn [length]; lia]. }
  crush.
Qed.
Lemma check_inv E r g t : check_go E r = Some (g, t) -> exists g', r = Some (g', t).
Proof. unfold check_go. destruct r as [[[|] x]|]; intro H; [injection H as _ <-; eexists; reflexivity|injection H as _ <-; eexists; reflexivity|discriminate]. Qed.
Lemma st_points E s g t : upto E 3 s -> blockPoints E s = Some (g, t) -> upto E 4 t.
Proof.
  intros H EQ. apply check_inv in EQ. destruct EQ as (g' & EQ). destruct (Z.ltb_spec 0 (sp_points (se_par E))) as [Y|Y]; [|injection EQ as _ <-; apply (upto_mono E 3); [lia|exact H]].
  opened H. destruct (shape_points E _ _ _ _ _ Z EQ) as (new & T' & PS & NP & NPB & NR & Z'). split; [exact Z'|].
  exists o, b, f, new, u, r, p2, r2. rewrite T', T.
  wipe B4. wipe B5. wipe B6. wipe B7. wipe B8. rewrite !app_nil_r. split; [rewrite !app_assoc; reflexivity|].
  cbn [heads filter map length Nat.add] in *. rewrite NR. crush; lia.
Qed.
Lemma unit_zero E j s : no_objective (se_tp E) (ss_p s) -> no_objective (se_tp E) (ss_p (unitStep E j s)).
Proof.
  intros Z i Hi. unfold unitStep, tryOne. cbv zeta. set (t1 := with_p s _). set (a := se_solve E (length (ss_tr t1))).
  destruct (bump_frame a t1) as (F1 & _). cbn [with_p ss_p with_obj ps_obj]. unfold upd. destruct (Nat.eqb_spec i j) as [EQ|NE]; [reflexivity|].
  assert (EP : forall c : bool, ss_p (if so_optimal a && c then with_lo {| ss_p := ss_p (bump_all a t1); ss_lo := ss_lo (bump_all a t1); ss_row := ss_row (bump_all a t1);
     ss_clb := ss_clb (bump_all a t1); ss_cub := ss_cub (bump_all a t1); ss_tr := ss_tr (bump_all a t1) ++ [{| tr_kind := KUnit; tr_index := j; tr_st := ss_p (bump_all a t1); tr_lo := ss_lo (bump_all a t1) |}];
     ss_code := so_code a; ss_np := ss_np (bump_all a t1); ss_nr := ss_nr (bump_all a t1) |} (upd (ss_lo (bump_all a t1)) j (Some (so_obj a))) else
     {| ss_p := ss_p (bump_all a t1); ss_lo := ss_lo (bump_all a t1); ss_row := ss_row (bump_all a t1);
     ss_clb := ss_clb (bump_all a t1); ss_cub := ss_cub (bump_all a t1); ss_tr := ss_tr (bump_all a t1) ++ [{| tr_kind := KUnit; tr_index := j; tr_st := ss_p (bump_all a t1); tr_lo := ss_lo (bump_all a t1) |}];
     ss_code := so_code a; ss_np := ss_np (bump_all a t1); ss_nr := ss_nr (bump_all a t1) |}) = ss_p t1).
  { intro c. destruct (so_optimal a && c); exact F1. }
  cbn [ss_lo] in *. rewrite EP. unfold t1. cbn [with_p ss_p with_obj ps_obj]. unfold upd. destruct (Nat.eqb_spec i j); [congruence|]. apply Z, Hi.
Qed.
Lemma units_zero E : forall dirs n s g t, no_objective (se_tp E) (ss_p s) -> loopUnits E dirs n s = Some (g, t) -> no_objective (se_tp E) (ss_p t).
Proof.
  induction dirs as [|j r IH]; intros n s g t Z EQ; cbn [loopUnits] in EQ; [injection EQ as _ <-; exact Z|].
  destruct (_ <=? _)%Z; [injection EQ as _ <-; exact Z|]. destruct (abandon E s); [injection EQ as _ <-; exact Z|].
  destruct (negb _); [exact (IH _ _ _ _ Z EQ)|]. refine (IH _ _ _ _ _ EQ). apply unit_zero, Z.
Qed.
Lemma st_units E s g t : upto E 4 s -> blockUnits E s = Some (g, t) -> upto E 5 t.
Proof.
  intros H EQ. apply check_inv in EQ. destruct EQ as (g' & EQ). destruct (Z.ltb_spec 0 (max_units (se_par E) (tp_ncols (se_tp E)))) as [Y|Y]; [|injection EQ as _ <-; apply (upto_mono E 4); [lia|exact H]].
  opened H. destruct (shape_units E _ _ _ _ _ EQ) as (new & T' & P1 & P2 & P3 & NP & NR). split; [exact (units_zero E _ _ _ _ _ Z EQ)|].
  exists o, b, f, p, new, r, p2, r2. rewrite T', T, NP, NR.
  wipe B5. wipe B6. wipe B7. wipe B8. rewrite !app_nil_r. split; [rewrite !app_assoc; reflexivity|].
  crush.
Qed.
Lemma st_rays E s g t : upto E 5 s -> blockRays E s = Some (g, t) -> upto E 6 t.
Proof.
  intros H EQ. apply check_inv in EQ. destruct EQ as (g' & EQ). destruct (Z.ltb_spec 0 (max_rays (se_par E) (length (rayIndex E)))) as [Y|Y]; [|injection EQ as _ <-; apply (upto_mono E 5); [lia|exact H]].
  opened H. destruct (shape_rays E _ _ _ _ EQ) as (new & T' & P1 & P2 & P3 & P4 & NP & Z'). split; [exact (Z' Z)|].
  exists o, b, f, p, u, new, p2, r2. rewrite T', T, NP.
  wipe B6. wipe B7. wipe B8. rewrite !app_nil_r. split; [rewrite !app_assoc; reflexivity|].
  cbn [length Nat.add] in *. crush; lia.
Qed.
Lemma st_points2 E lb rest s g t : pointIndex E = lb :: rest -> upto E 6 s -> blockPoints2 E lb s = Some (g, t) -> upto E 7 t.
Proof.
  intros PI H EQ. apply check_inv in EQ. destruct EQ as (g' & EQ). destruct (Z.ltb_spec (ss_np s) (sp_points (se_par E))) as [Y|Y]; [|injection EQ as _ <-; apply (upto_mono E 6); [lia|exact H]].
  opened H. destruct (shape_points2 E lb _ _ _ _ _ Z EQ) as (new & T' & PS & NP & NPB & NR & Z'). split; [exact Z'|].
  replace lb with (hd 0%nat (pointIndex E)) in PS by (rewrite PI; reflexivity).
  exists o, b, f, p, u, r, new, r2. rewrite T', T, NR.
  wipe B7. wipe B8. rewrite !app_nil_r. split; [rewrite !app_assoc; reflexivity|].
  cbn [heads filter map length Nat.add] in *. crush; lia.
Qed.
Theorem schedule_shape : forall E p lo s, no_objective (se_tp E) p -> targetStrongAndDifferentCuts E p lo = Some s -> shape E (ss_tr s).
Proof.
  intros E p lo s Z0 H. assert (G : exists n, upto E n s \/ exists s1 g, upto E 7 s1 /\ blockRays2 E s1 = Some (g, s)).
  { unfold targetStrongAndDifferentCuts in H. fold (start p lo) in H. destruct (se_limit E 0); [injection H as <-; exists 1%nat; left; apply upto_start, Z0|].
    pose proof (upto_start E p lo Z0) as U0. unfold andthen at 1 in H.
    destruct (blockAllOnes E (start p lo)) as [[[|] s1]|] eqn:B1; [| |discriminate];
      (assert (U1 : upto E 1 s1) by (refine (st_allones E _ _ _ _ U0 B1); reflexivity)); [|injection H as <-; exists 1%nat; left; exact U1].
    destruct (blockBilinear E s1) as [[[|] s2]|] eqn:B2; [| |discriminate]; pose proof (st_bilinear E _ _ _ U1 B2) as U2; [|injection H as <-; exists 2%nat; left; exact U2].
    destruct (pointIndex E) as [|lb rest] eqn:PI; [discriminate|]. unfold andthen in H.
    destruct (blockDisjLB E lb s2) as [[[|] s3]|] eqn:B3; [| |discriminate]; pose proof (st_disjlb E lb rest _ _ _ PI U2 B3) as U3; [|injection H as <-; exists 3%nat; left; exact U3].
    destruct (blockPoints E s3) as [[[|] s4]|] eqn:B4; [| |discriminate]; pose proof (st_points E _ _ _ U3 B4) as U4; [|injection H as <-; exists 4%nat; left; exact U4].
    destruct (blockUnits E s4) as [[[|] s5]|] eqn:B5; [| |discriminate]; pose proof (st_units E _ _ _ U4 B5) as U5; [|injection H as <-; exists 5%nat; left; exact U5].
    destruct (blockRays E s5) as [[[|] s6]|] eqn:B6; [| |discriminate]; pose proof (st_rays E _ _ _ U5 B6) as U6; [|injection H as <-; exists 6%nat; left; exact U6].
    destruct (blockPoints2 E lb s6) as [[[|] s7]|] eqn:B7; [| |discriminate]; pose proof (st_points2 E lb rest _ _ _ PI U6 B7) as U7; [|injection H as <-; exists 7%nat; left; exact U7].
    destruct (blockRays2 E s7) as [[g s8]|] eqn:B8; [|discriminate]. injection H as <-. exists 7%nat. right. exists s7, g. auto. }
  clear p lo H Z0. destruct G as (n & [H0|(s1 & g & H0 & EQ)]).
  - opened H0. unfold shape. cbv zeta. exists o, b, f, p, u, r, p2, r2. rewrite <- A9, <- A10. crush.
  - unfold blockRays2 in EQ. opened H0. destruct (_ <? _)%Z.
    + destruct (shape_rays2 E _ _ _ _ EQ) as (new & T' & P1 & P2 & P3 & P4 & NP). wipe B8. exists o, b, f, p, u, r, p2, new. rewrite T', T, app_nil_r.
      rewrite <- A9. cbn [length] in A10. rewrite Nat.add_0_r in A10.
      split; [rewrite !app_assoc; reflexivity|]. crush.
    + injection EQ as _ <-. unfold shape. cbv zeta. exists o, b, f, p, u, r, p2, r2. rewrite <- A9, <- A10. crush.
Qed.
Print Assumptions schedule_shape.

(** The budgets that bound the numbers of solves in [shape]: a parameter that is not negative is the budget itself (for the unit directions,
    no more than there are columns); a negative one multiplies the square root, rounded up, of the number of rays, of
    the number of columns of the problem, and the cut limit. *)
Lemma root_up_sqrt n : (0 <= n)%Z -> root_up n (Z.sqrt_up n).
Proof.
  intros N. destruct (Z.eq_dec n 0) as [->|NZ]; [split; [cbn; lia|]; split; [cbn; lia|]; intros s S _; exact S|].
  pose proof (Z.sqrt_up_spec n ltac:(lia)) as [L U]. split; [apply Z.sqrt_up_nonneg|]. split; [exact U|].
  intros s S Ss. destruct (Z.le_gt_cases (Z.sqrt_up n) s) as [|G]; [assumption|].
  assert (B : (s * s <= Z.pred (Z.sqrt_up n) * Z.pred (Z.sqrt_up n))%Z) by (apply Z.mul_le_mono_nonneg; lia). lia.
Qed.
Theorem budgets : forall P nrays ncols,
  ((0 <= sp_rays P -> max_rays P nrays = sp_rays P) /\
   (sp_rays P < 0 -> exists r, root_up (Z.of_nat nrays) r /\ max_rays P nrays = Z.abs (sp_rays P) * r))%Z /\
  ((0 <= sp_units P -> max_units P ncols = Z.min (sp_units P) (Z.of_nat ncols)) /\
   (sp_units P < 0 -> 0 <= sp_probcols P -> exists r, root_up (sp_probcols P) r /\ max_units P ncols = Z.abs (sp_units P) * r))%Z /\
  ((0 <= sp_perpoint P -> max_per_point P = sp_perpoint P) /\ (sp_perpoint P < 0 -> max_per_point P = Z.abs (sp_perpoint P) * sp_cutlimit P))%Z.
Proof.
  intros P nr nc. unfold max_rays, max_units, max_per_point. split; [|split].
  - split; intros H; destruct (Z.ltb_spec (sp_rays P) 0); try lia. exists (Z.sqrt_up (Z.of_nat nr)). split; [apply root_up_sqrt; lia|lia].
  - split; [intros H|intros H C]; destruct (Z.ltb_spec (sp_units P) 0); try lia. exists (Z.sqrt_up (sp_probcols P)). split; [apply root_up_sqrt; lia|lia].
  - split; intros H; destruct (Z.ltb_spec (sp_perpoint P) 0); lia.
Qed.
Print Assumptions budgets.
Example budgets_example : root_up 10 4 /\ root_up 9 3.
Proof. split; [exact (root_up_sqrt 10 ltac:(lia))|exact (root_up_sqrt 9 ltac:(lia))]. Qed.

(** ** The function always returns, provided the PRLP has a point row. *)
Lemma total_points E : forall pts good s, no_objective (se_tp E) (ss_p s) -> exists r, loopPoints E good pts s = Some r.
Proof.
  induction pts as [|row r IH]; intros good s Z; cbn [loopPoints]; [eexists; reflexivity|].
  destruct (_ || _); [eexists; reflexivity|]. destruct (_ <=? _)%Z; [eexists; reflexivity|]. destruct (negb (ss_row s row =? 0)%Z); [apply IH, Z|].
  destruct (point_call E TIGHT_POINTS row (with_counts s (ss_np s + 1) (ss_nr s)) Z) as (good' & s' & sts & EQ2 & TR & U & Z' & _). rewrite EQ2. apply IH, Z'.
Qed.
Lemma total_points2 E lb : forall pts good s, no_objective (se_tp E) (ss_p s) -> exists r, loopPoints2 E lb good pts s = Some r.
Proof.
  induction pts as [|row r IH]; intros good s Z; cbn [loopPoints2]; [eexists; reflexivity|].
  destruct (_ || _); [eexists; reflexivity|]. destruct (_ <=? _)%Z; [eexists; reflexivity|]. destruct (_ <? _)%Z; [apply IH, Z|].
  destruct (Nat.eqb row lb); [apply IH, Z|].
  destruct (point_call E TIGHT_POINTS2 row (with_counts s (ss_np s + 1) (ss_nr s)) Z) as (good' & s' & sts & EQ2 & TR & U & Z' & _). rewrite EQ2. apply IH, Z'.
Qed.
Lemma total_units E : forall dirs n s, exists r, loopUnits E dirs n s = Some r.
Proof.
  induction dirs as [|j r IH]; intros n s; cbn [loopUnits]; [eexists; reflexivity|].
  destruct (_ <=? _)%Z; [eexists; reflexivity|]. destruct (abandon E s); [eexists; reflexivity|]. destruct (negb _); apply IH.
Qed.
Lemma total_rays E : forall rays s, exists r, loopRays E rays s = Some r.
Proof.
  induction rays as [|j r IH]; intros s; cbn [loopRays]; [eexists; reflexivity|].
  destruct (_ <=? _)%Z; [eexists; reflexivity|]. destruct (abandon E s); [eexists; reflexivity|]. destruct (negb _); apply IH.
Qed.
Lemma total_rays2 E : forall rays s, exists r, loopRays2 E rays s = Some r.
Proof.
  induction rays as [|j r IH]; intros s; cbn [loopRays2]; [eexists; reflexivity|].
  destruct (abandon E s); [eexists; reflexivity|]. destruct (_ <=? _)%Z; [eexists; reflexivity|]. destruct (_ <? _)%Z; apply IH.
Qed.
Lemma check_total E r : (exists x, r = Some x) -> exists x, check_go E r = Some x.
Proof. intros ([[|] t] & ->); eexists; reflexivity. Qed.
Theorem schedule_defined : forall E p lo, no_objective (se_tp E) p -> pointIndex E <> [] ->
  exists s, targetStrongAndDifferentCuts E p lo = Some s.
Proof.
  intros E p lo Z0 NE. unfold targetStrongAndDifferentCuts. fold (start p lo). destruct (se_limit E 0); [eexists; reflexivity|].
  pose proof (upto_start E p lo Z0) as U0. unfold andthen.
  assert (X1 : exists x, blockAllOnes E (start p lo) = Some x) by (unfold blockAllOnes; destruct (_ =? _)%Z; eexists; reflexivity).
  destruct X1 as ([g1 s1] & B1). rewrite B1. assert (U1 : upto E 1 s1) by (refine (st_allones E _ _ _ _ U0 B1); reflexivity).
  destruct g1; [|eexists; reflexivity].
  assert (X2 : exists x, blockBilinear E s1 = Some x) by (unfold blockBilinear; destruct (_ <=? _)%Z; eexists; reflexivity).
  destruct X2 as ([g2 s2] & B2). rewrite B2. pose proof (st_bilinear E _ _ _ U1 B2) as U2. destruct g2; [|eexists; reflexivity].
  destruct (pointIndex E) as [|lb rest] eqn:PI; [congruence|].
  assert (X3 : exists x, blockDisjLB E lb s2 = Some x).
  { unfold blockDisjLB. destruct (_ <? _)%Z; [|eexists; reflexivity].
    destruct (point_call E DISJ_LB lb s2 (proj1 U2)) as (good' & s' & sts & EQ2 & _). rewrite EQ2. eexists; reflexivity. }
  destruct X3 as ([g3 s3] & B3). rewrite B3. pose proof (st_disjlb E lb rest _ _ _ PI U2 B3) as U3. destruct g3; [|eexists; reflexivity].
  assert (X4 : exists x, blockPoints E s3 = Some x).
  { apply check_total. destruct (_ <? _)%Z; [|eexists; reflexivity]. apply total_points, U3. }
  destruct X4 as ([g4 s4] & B4). rewrite B4. pose proof (st_points E _ _ _ U3 B4) as U4. destruct g4; [|eexists; reflexivity].
  assert (X5 : exists x, blockUnits E s4 = Some x).
  { apply check_total. destruct (_ <? _)%Z; [|eexists; reflexivity]. apply total_units. }
  destruct X5 as ([g5 s5] & B5). rewrite B5. pose proof (st_units E _ _ _ U4 B5) as U5. destruct g5; [|eexists; reflexivity].
  assert (X6 : exists x, blockRays E s5 = Some x).
  { apply check_total. destruct (_ <? _)%Z; [|eexists; reflexivity]. apply total_rays. }
  destruct X6 as ([g6 s6] & B6). rewrite B6. pose proof (st_rays E _ _ _ U5 B6) as U6. destruct g6; [|eexists; reflexivity].
  assert (X7 : exists x, blockPoints2 E lb s6 = Some x).
  { apply check_total. destruct (_ <? _)%Z; [|eexists; reflexivity]. apply total_points2, U6. }
  destruct X7 as ([g7 s7] & B7). rewrite B7. destruct g7; [|eexists; reflexivity].
  unfold blockRays2. destruct (_ <? _)%Z; [|eexists; reflexivity]. destruct (total_rays2 E (rayIndex E) s7) as ([g8 s8] & ->). eexists; reflexivity.
Qed.
Print Assumptions schedule_defined.

(** ** Example: two columns, three points (rows 0-2) and two rays (rows 3, 4).  Ray 4 fails and ray 3 succeeds
    without being tight; limits are never reached; all heuristics are on. *)
Definition exd59 : tpdata := {| tp_ncols := 2; tp_nrows := 5;
  tp_row := fun i => match i with 0%nat => [(0%nat, 1); (1%nat, 1)] | 1%nat => [(0%nat, 2); (1%nat, 1)] | 2%nat => [(0%nat, 1); (1%nat, 2)] | 3%nat => [(0%nat, 1); (1%nat, -(1))] | _ => [(0%nat, -(1)); (1%nat, 3)] end;
  tp_lo := fun i => Some (if Nat.ltb i 3 then 1 else 0); tp_norm := fun _ => 1 |}.
Definition exans59 (code : Z) : solved := {| so_code := code; so_optimal := true; so_row := fun _ => false; so_lb := fun _ => false; so_ub := fun _ => false;
  so_obj := 0; so_sol := fun _ => 0; so_cands := [] |}.
Definition exE59 (lb pts rays : Z) (fail : nat) (lim : nat -> bool) : senv := {| se_tp := exd59; se_rhs := fun i => if Nat.ltb i 3 then 1 else 0; se_mode := 1;
  se_par := {| sp_allones := 1; sp_bilinear := 0; sp_disjlb := lb; sp_points := pts; sp_perpoint := 1; sp_rays := rays; sp_units := 5; sp_cutlimit := 10; sp_probcols := 2 |};
  se_solve := fun k => exans59 (if Nat.eqb k fail then -(1) else 0); se_limit := lim; se_dirs := [1; 0]%nat; se_bil := 0; se_bilobj := fun _ => 0 |}.
Definition exp59 : pst := {| ps_obj := fun _ => 0; ps_up := fun _ => None |}.
Definition kinds (r : option sst) : option (list (kind * nat)) := option_map (fun s => map (fun e => (tr_kind e, tr_index e)) (ss_tr s)) r.
Example schedule_example : no_objective exd59 exp59 /\ pointIndex (exE59 1 9 9 6 (fun _ => false)) <> [] /\
  kinds (targetStrongAndDifferentCuts (exE59 1 9 9 6 (fun _ => false)) exp59 (fun _ => None)) =
  Some [(KAllOnes, 0); (KPoint DISJ_LB true, 0); (KPoint TIGHT_POINTS true, 1); (KUnit, 1); (KUnit, 0); (KRay, 3); (KRay, 4);
        (KPoint TIGHT_POINTS2 true, 1); (KPoint TIGHT_POINTS2 true, 2); (KRay2, 3)]%nat /\
  kinds (targetStrongAndDifferentCuts (exE59 1 9 9 6 (fun k => Nat.leb 3 k)) exp59 (fun _ => None)) =
  Some [(KAllOnes, 0); (KPoint DISJ_LB true, 0); (KPoint TIGHT_POINTS true, 1)]%nat.
Proof. split; [intros j Hj; reflexivity|]. split; [vm_compute; discriminate|]. split; vm_compute; reflexivity. Qed.
(** The oracle of the example is honest when the columns are non-negative. *)
Example honest_example : exists s, targetStrongAndDifferentCuts (exE59 1 9 9 6 (fun _ => false)) exp59 (fun _ => None) = Some s /\
  honest (exE59 1 9 9 6 (fun _ => false)) (fun x => 0 <= x 0%nat /\ 0 <= x 1%nat) (ss_tr s).
Proof.
  eexists. split; [vm_compute; reflexivity|]. intros k e N K O. cbn [exE59 se_solve exans59 so_obj so_sol]. split; [reflexivity|].
  intros x ((H0 & H1) & _). cbn [ss_tr] in N. do 10 (destruct k as [|k]; [injection N as <-; first [discriminate K | exact H0 | exact H1]|]). destruct k; discriminate N.
Qed.

(** Refuted: "for each of the points that has not been tight so far, try it" (PRLP.cpp:1469) — the loop ends
    before the last point: with three points, the third is not tried in that pass although it was never tight;
    and a disjunction with two points tries none. *)
Theorem last_point_refuted : exists E p s, targetStrongAndDifferentCuts E p (fun _ => None) = Some s /\
  pointIndex E = [0; 1; 2]%nat /\ (forall k r, so_row (se_solve E k) r = false) /\ (forall k, se_limit E k = false) /\ sp_points (se_par E) = 9%Z /\
  forall e, In e (ss_tr s) -> tr_kind e = KPoint TIGHT_POINTS true -> tr_index e <> 2%nat.
Proof.
  eexists (exE59 1 9 9 6 (fun _ => false)), exp59, _. split; [vm_compute; reflexivity|]. split; [reflexivity|]. split; [reflexivity|]. split; [reflexivity|].
  split; [reflexivity|]. intros e He. cbn [ss_tr In] in He. repeat (destruct He as [<-|He]; [cbn [tr_kind tr_index]; first [discriminate | intros _; discriminate]|]). destruct He.
Qed.
Print Assumptions last_point_refuted.

Lemma subseq_in {A} (a b : list A) x : subseq a b -> In x a -> In x b.
Proof. induction 1 as [l|y a b S IH|y a b S IH]; intro H; [destruct H| |]. - destruct H as [->|H]; [left; reflexivity|right; apply IH, H]. - right; apply IH, H. Qed.
Lemma in_removelast {A} (x : A) : forall l, In x (removelast l) -> In x l.
Proof. induction l as [|a l IH]; [trivial|]. destruct l as [|b l]; [intros []|]. intros [->|H]; [left; reflexivity|right; apply IH, H]. Qed.
Lemma points_nodup E : NoDup (pointIndex E).
Proof. apply NoDup_filter, seq_NoDup. Qed.
(** Refuted: the points are all tried eventually — when the heuristic for the best point (USE_DISJ_LB) is off,
    that point is never made the objective, in either pass, whatever the budgets. *)
Theorem best_point_refuted : forall E p lo s lb rest, no_objective (se_tp E) p -> pointIndex E = lb :: rest -> (sp_disjlb (se_par E) <= 0)%Z ->
  targetStrongAndDifferentCuts E p lo = Some s -> forall e, In e (ss_tr s) -> is_head e = true -> tr_index e <> lb.
Proof.
  intros E p lo s lb rest Z0 PI OFF H e He Hd EQ.
  destruct (schedule_shape E p lo s Z0 H) as (o & b & f & q & u & r & q2 & r2 & T & A1 & _ & _ & A2 & _ & _ & A3 & (_ & A4 & _) & A5 & _ & _ & A6 & _ & (_ & A7 & _) & _ & A8 & _).
  rewrite T, (A3 OFF) in He. cbn [app] in He. repeat rewrite in_app_iff in He.
  assert (HO : forall P tr, only P tr -> (forall h, P (KPoint h true) = false) -> ~ In e tr).
  { intros P tr O K I0. unfold only in O. rewrite Forall_forall in O. specialize (O e I0). unfold is_head in Hd.
    destruct (tr_kind e) as [| |h [|]| | |]; try discriminate Hd. rewrite K in O. discriminate. }
  assert (HH : forall tr, In e tr -> In lb (heads tr)).
  { intros tr I0. unfold heads. apply in_map_iff. exists e. split; [exact EQ|]. apply filter_In. auto. }
  destruct He as [He|[He|[He|[He|[He|[He|He]]]]]].
  - exact (HO is_allones o A1 (fun _ => eq_refl) He).
  - exact (HO is_bilinear b A2 (fun _ => eq_refl) He).
  - apply HH in He. apply (subseq_in _ _ _ A4), in_removelast in He. rewrite PI in He. cbn [tl] in He.
    pose proof (points_nodup E) as ND. rewrite PI in ND. inversion ND; auto.
  - exact (HO is_unit u A5 (fun _ => eq_refl) He).
  - exact (HO is_ray r A6 (fun _ => eq_refl) He).
  - apply HH in He. apply (subseq_in _ _ _ A7) in He. apply filter_In in He. destruct He as [_ He]. rewrite PI in He. cbn [hd] in He.
    rewrite Nat.eqb_refl in He. discriminate.
  - exact (HO is_ray2 r2 A8 (fun _ => eq_refl) He).
Qed.
Print Assumptions best_point_refuted.
Example best_point_example : exists s, targetStrongAndDifferentCuts (exE59 0 9 9 99 (fun _ => false)) exp59 (fun _ => None) = Some s /\
  heads (ss_tr s) = [1; 1; 2]%nat.
Proof. eexists. split; vm_compute; reflexivity. Qed.

(** Refuted: the function is defined for every PRLP — with no row of non-zero right-hand side (such as when all
    scaled right-hand sides are below the tolerance) it reads the first element of an empty vector. *)
Theorem no_point_refuted : exists E p, no_objective (se_tp E) p /\ (forall k, se_limit E k = false) /\
  (forall r, se_rhs E r == (1 # 100000000)) /\ targetStrongAndDifferentCuts E p (fun _ => None) = None.
Proof.
  exists {| se_tp := exd59; se_rhs := fun _ => 1 # 100000000; se_mode := 1; se_par := se_par (exE59 1 9 9 6 (fun _ => false)); se_solve := fun _ => exans59 0;
    se_limit := fun _ => false; se_dirs := []; se_bil := 0; se_bilobj := fun _ => 0 |}, exp59.
  split; [intros j Hj; reflexivity|]. split; [reflexivity|]. split; [reflexivity|]. vm_compute. reflexivity.
Qed.
Print Assumptions no_point_refuted.
