(** Lemmas about the parameter object. *)
From Verif Require Import Prelude Model.TextUtil Model.Parameters Spec.ParamSpec Proofs.TextP Proofs.ToleranceP.
#[local] Open Scope Z_scope.

Lemma int_eqb_eq a b : int_eqb a b = true <-> a = b.
Proof. unfold int_eqb. match goal with |- context[if ?d then _ else _] => destruct d end; split; congruence. Qed.
Lemma double_eqb_eq a b : double_eqb a b = true <-> a = b.
Proof. unfold double_eqb. match goal with |- context[if ?d then _ else _] => destruct d end; split; congruence. Qed.
Lemma string_eqb_eq a b : string_eqb a b = true <-> a = b.
Proof. unfold string_eqb. match goal with |- context[if ?d then _ else _] => destruct d end; split; congruence. Qed.

Section Maps.
  Context {K V SH : Type} (eqb : K -> K -> bool) (sh : V -> SH).
  Hypothesis eqb_eq : forall a b, eqb a b = true <-> a = b.
  Definition shape (m : list (K * V)) := map (fun e => (fst e, sh (snd e))) m.
  Lemma lookup_shape (m m' : list (K * V)) k : shape m = shape m' -> option_map sh (lookup eqb m k) = option_map sh (lookup eqb m' k).
  Proof.
    revert m'. induction m as [|[a v] m IH]; intros [|[b w] m'] E; try discriminate; [reflexivity|].
    cbn [shape map fst snd] in E. injection E as -> E1 E2. cbn [lookup]. destruct (eqb k b); [cbn; congruence|].
    apply IH, E2.
  Qed.
  Lemma lookup_update (m : list (K * V)) k v k' : lookup eqb (update eqb m k v) k' =
    if eqb k' k then option_map (fun _ => v) (lookup eqb m k) else lookup eqb m k'.
  Proof.
    assert (R : forall a, eqb a a = true) by (intro; apply eqb_eq; reflexivity).
    induction m as [|[a w] m IH]; cbn [update lookup].
    - destruct (eqb k' k); reflexivity.
    - destruct (eqb k a) eqn:Ea; cbn [lookup].
      + apply eqb_eq in Ea. subst a. destruct (eqb k' k); reflexivity.
      + destruct (eqb k' k) eqn:Ek.
        * apply eqb_eq in Ek. subst k'. rewrite Ea, IH. reflexivity.
        * destruct (eqb k' a); [reflexivity|exact IH].
  Qed.
  Lemma update_shape (m : list (K * V)) k v w : lookup eqb m k = Some w -> sh v = sh w -> shape (update eqb m k v) = shape m.
  Proof.
    induction m as [|[a x] m IH]; cbn [lookup update]; [discriminate|].
    destruct (eqb k a) eqn:Ea; intros H E.
    - injection H as ->. cbn [shape map fst snd]. congruence.
    - cbn [shape map fst snd]. f_equal. apply IH; assumption.
  Qed.
End Maps.

Definition ish (p : iparam) := (ip_name p, ip_min p, ip_max p, ip_allowed p).
Definition dsh (p : dparam) := (dp_name p, dp_min p, dp_max p).
Definition ssh (p : sparam) := sp_name p.

Definition wfP (P : params) : Prop :=
  shape ish (ints P) = shape ish intTable /\
  shape dsh (doubles P) = shape dsh doubleTable /\
  shape ssh (strings P) = shape ssh stringTable /\
  (forall k p, lookup int_eqb (ints P) k = Some p -> i_val_is_allowed p (ip_val p) = true /\ is_int (ip_val p)) /\
  (forall k p, lookup double_eqb (doubles P) k = Some p -> d_val_is_allowed p (dp_val p) = true).

Lemma wf_int P k : wfP P -> exists p, lookup int_eqb (ints P) k = Some p /\
  option_map ish (lookup int_eqb intTable k) = Some (ish p).
Proof.
  intros (H & _). pose proof (lookup_shape int_eqb ish _ _ k H) as E.
  destruct (lookup int_eqb (ints P) k) as [p|]; [exists p; split; [reflexivity|symmetry; exact E]|].
  destruct k; vm_compute in E; discriminate.
Qed.
Lemma wf_double P k : wfP P -> exists p, lookup double_eqb (doubles P) k = Some p /\
  option_map dsh (lookup double_eqb doubleTable k) = Some (dsh p).
Proof.
  intros (_ & H & _). pose proof (lookup_shape double_eqb dsh _ _ k H) as E.
  destruct (lookup double_eqb (doubles P) k) as [p|]; [exists p; split; [reflexivity|symmetry; exact E]|].
  destruct k; discriminate E.
Qed.
Lemma wf_string P k : wfP P -> exists p, lookup string_eqb (strings P) k = Some p /\
  option_map ssh (lookup string_eqb stringTable k) = Some (ssh p).
Proof.
  intros (_ & _ & H & _). pose proof (lookup_shape string_eqb ssh _ _ k H) as E.
  destruct (lookup string_eqb (strings P) k) as [p|]; [exists p; split; [reflexivity|symmetry; exact E]|].
  destruct k; discriminate E.
Qed.

Lemma wf_new : wfP new_params.
Proof.
  split; [reflexivity|]. split; [reflexivity|]. split; [reflexivity|]. split.
  - intros k p H. destruct k; vm_compute in H; injection H as <-; split;
      try reflexivity; unfold is_int; cbn [ip_val]; lia.
  - intros k p H. destruct k; cbn in H; injection H as <-; vm_compute; reflexivity.
Qed.

Lemma set_int_done P k v P' : set_int P k v = Done P' ->
  exists p p', lookup int_eqb (ints P) k = Some p /\ i_set p v = Done p' /\
    P' = {| ints := update int_eqb (ints P) k p'; doubles := doubles P; strings := strings P |}.
Proof.
  unfold set_int. destruct (lookup int_eqb (ints P) k) as [p|] eqn:E; [|discriminate].
  destruct (i_set p v) as [p'| | |] eqn:E'; try discriminate. intro H. injection H as <-. exists p, p'. auto.
Qed.
Lemma set_double_done P k v P' : set_double P k v = Done P' ->
  exists p p', lookup double_eqb (doubles P) k = Some p /\ d_set p v = Done p' /\
    P' = {| ints := ints P; doubles := update double_eqb (doubles P) k p'; strings := strings P |}.
Proof.
  unfold set_double. destruct (lookup double_eqb (doubles P) k) as [p|] eqn:E; [|discriminate].
  destruct (d_set p v) as [p'| | |] eqn:E'; try discriminate. intro H. injection H as <-. exists p, p'. auto.
Qed.
Lemma i_set_done p v p' : i_set p v = Done p' -> ip_val p' = v /\ ish p' = ish p /\ i_val_is_allowed p' v = true.
Proof. unfold i_set. destruct (i_val_is_allowed _ _) eqn:E; [|discriminate]. intro H. injection H as <-. auto. Qed.
Lemma d_set_done p v p' : d_set p v = Done p' -> dp_val p' = v /\ dsh p' = dsh p /\ d_val_is_allowed p' v = true.
Proof. unfold d_set. destruct (d_val_is_allowed _ _) eqn:E; [|discriminate]. intro H. injection H as <-. auto. Qed.

Lemma wf_set_int P k v P' : wfP P -> is_int v -> set_int P k v = Done P' -> wfP P'.
Proof.
  intros (H1 & H2 & H3 & H4 & H5) Hv H. apply set_int_done in H. destruct H as (p & p' & E & E' & ->).
  apply i_set_done in E'. destruct E' as (V & S & A).
  split; [cbn [ints]; rewrite (update_shape int_eqb ish _ _ _ _ E S); exact H1|].
  split; [exact H2|]. split; [exact H3|]. split; [|exact H5].
  intros k' q. cbn [ints]. rewrite (lookup_update _ int_eqb_eq). destruct (int_eqb k' k); [|apply H4].
  rewrite E. cbn [option_map]. intro Q. injection Q as <-. rewrite V. auto.
Qed.
Lemma wf_set_double P k v P' : wfP P -> set_double P k v = Done P' -> wfP P'.
Proof.
  intros (H1 & H2 & H3 & H4 & H5) H. apply set_double_done in H. destruct H as (p & p' & E & E' & ->).
  apply d_set_done in E'. destruct E' as (V & S & A).
  split; [exact H1|]. split; [cbn [doubles]; rewrite (update_shape double_eqb dsh _ _ _ _ E S); exact H2|].
  split; [exact H3|]. split; [exact H4|].
  intros k' q. cbn [doubles]. rewrite (lookup_update _ double_eqb_eq). destruct (double_eqb k' k); [|apply H5].
  rewrite E. cbn [option_map]. intro Q. injection Q as <-. rewrite V. auto.
Qed.
Lemma wf_set_string P k v P' : wfP P -> set_string P k v = Done P' -> wfP P'.
Proof.
  intros (H1 & H2 & H3 & H4 & H5). unfold set_string.
  destruct (lookup string_eqb (strings P) k) as [p|] eqn:E; [|discriminate]. intro H. injection H as <-.
  split; [exact H1|]. split; [exact H2|]. split; [|split; assumption].
  cbn [strings]. rewrite (update_shape string_eqb ssh _ _ _ p); [exact H3|exact E|reflexivity].
Qed.

(** Setting by name always lands on CUTLIMIT. *)
Lemma set_by_name_is st P n t : wfP P -> set_by_name st P n t =
  match set_int P CUTLIMIT (int_from t) with
  | Done P' => Done (P', true) | Exit1 => Exit1 | Terminated => Terminated | Undef => Undef end.
Proof.
  intro H. destruct (wf_int P CUTLIMIT H) as (p & E & S). 
  assert (N : ip_name p = txt "CUTLIMIT") by (vm_compute in S; injection S as S1 S2 S3 S4; symmetry; exact S1).
  unfold set_by_name. change all_int with (CUTLIMIT :: tl all_int). cbn [name_loop]. rewrite E. cbn [option_map].
  rewrite N. replace (own_name_matches _) with true by (vm_compute; reflexivity). reflexivity.
Qed.
Lemma parseInt_b2z b : is_int (b2z b). Proof. destruct b; unfold is_int, b2z; lia. Qed.
Lemma int_from_is_int t : is_int (int_from t).
Proof.
  unfold int_from. destruct (text_eqb _ _); [unfold is_int, INT_MAX; lia|].
  destruct (text_eqb _ _); [unfold is_int, INT_MIN; lia|apply parseInt_b2z].
Qed.

(** On ints the tolerance tests are the exact comparisons. *)
Lemma zd_lt a b : d_lessThanVal (zd a) (zd b) = (a <? b).
Proof.
  unfold d_lessThanVal, zd, d_sub, d_le. destruct (Z.ltb_spec a b) as [H|H].
  - apply Qle_bool_iff. assert (H' : a <= b - 1) by lia. rewrite Zle_Qle in H'.
    unfold Z.sub in H'. rewrite inject_Z_plus in H'. unfold EPS7. change (inject_Z (- (1))) with (-(1))%Q in H'. lra.
  - apply not_true_is_false. rewrite Qle_bool_iff. rewrite Zle_Qle in H. unfold EPS7. intro. lra.
Qed.
Lemma zd_gt a b : d_greaterThanVal (zd a) (zd b) = (b <? a).
Proof.
  unfold d_greaterThanVal, zd, d_add, d_le. destruct (Z.ltb_spec b a) as [H|H].
  - apply Qle_bool_iff. assert (H' : b + 1 <= a) by lia. rewrite Zle_Qle in H'.
    rewrite inject_Z_plus in H'. unfold EPS7. change (inject_Z 1) with 1%Q in H'. lra.
  - apply not_true_is_false. rewrite Qle_bool_iff. rewrite Zle_Qle in H. unfold EPS7. intro. lra.
Qed.
Lemma zd_isVal a b : d_isVal (zd a) (zd b) = (a =? b).
Proof.
  unfold d_isVal, zd. destruct (Z.eqb_spec a b) as [->|H].
  - apply isVal_iff. unfold EPS7. qabs; lra.
  - apply not_true_is_false. rewrite isVal_iff. unfold EPS7. intro Q.
    assert (H' : a + 1 <= b \/ b + 1 <= a) by lia. rewrite !Zle_Qle, !inject_Z_plus in H'.
    change (inject_Z 1) with 1%Q in H'. revert Q. destruct H' as [H'|H']; qabs; lra.
Qed.
Lemma zd_le a b : d_le (zd a) (zd b) = (a <=? b).
Proof. unfold d_le, zd. destruct (Z.leb_spec a b) as [H|H].
  - apply Qle_bool_iff. rewrite <- Zle_Qle. exact H.
  - apply not_true_is_false. rewrite Qle_bool_iff, <- Zle_Qle. lia. Qed.
Lemma zd_inf a b : d_isInfinity (zd a) (zd b) = (b <=? a).
Proof. unfold d_isInfinity. rewrite zd_le, zd_lt. destruct (Z.leb_spec b a), (Z.ltb_spec a b); try lia; reflexivity. Qed.
Lemma zd_ninf a b : d_isNegInfinity (zd a) (zd b) = (a <=? b).
Proof. unfold d_isNegInfinity. rewrite zd_le, zd_gt. destruct (Z.leb_spec a b), (Z.ltb_spec b a); try lia; reflexivity. Qed.

Lemma range_allowed p t : ip_allowed p = [] -> is_int (ip_val p) -> ip_min p <= ip_max p ->
  INT_MIN <= ip_max p -> ip_min p < INT_MAX -> INT_MIN < ip_max p -> 
  (i_val_is_allowed p t = true <-> ip_min p <= ip_val p <= ip_max p).
Proof.
  intros E V R A B C. unfold i_val_is_allowed. rewrite E. cbv zeta.
  rewrite !zd_inf, !zd_ninf, !zd_lt, !zd_gt, !zd_isVal.
  assert (V' : INT_MIN <= ip_val p <= INT_MAX) by exact V. clear V. revert V' R A B C.
  generalize INT_MIN INT_MAX (ip_min p) (ip_max p) (ip_val p). clear. intros m M a b v V R A B C.
  destruct (Z.leb_spec M a), (Z.leb_spec M b), (Z.ltb_spec a v), (Z.ltb_spec v b), (Z.leb_spec b m),
    (Z.leb_spec a m), (Z.eqb_spec a b), (Z.eqb_spec v a), (Z.ltb_spec v a), (Z.ltb_spec b v);
    cbn [andb orb negb]; split; intro HH; try discriminate; try reflexivity; lia.
Qed.

(** Whether a value is accepted depends only on the declaration. *)
Lemma int_allowed_declared k p q : lookup int_eqb intTable k = Some p -> ish q = ish p -> is_int (ip_val q) ->
  (i_val_is_allowed q (ip_val q) = true <-> declared_int k (ip_val q)).
Proof.
  intros H E V. injection E as E1 E2 E3 E4.
  destruct k; vm_compute in H; injection H as <-; cbn [ip_name ip_min ip_max ip_allowed] in *;
    try (rewrite range_allowed; rewrite ?E2, ?E3; unfold INT_MIN, INT_MAX;
         try (assumption || lia); unfold declared_int, is_int in *; lia).
  unfold i_val_is_allowed. rewrite E4. cbn [existsb]. rewrite !orb_true_iff, !Z.eqb_eq. cbn. intuition congruence.
Qed.

Lemma lookup_int_shape P k p : wfP P -> lookup int_eqb (ints P) k = Some p ->
  exists p0, lookup int_eqb intTable k = Some p0 /\ ish p = ish p0.
Proof.
  intros H E. destruct (wf_int P k H) as (q & Q1 & Q2). assert (q = p) by congruence. subst q.
  destruct (lookup int_eqb intTable k) as [p0|]; [|discriminate]. cbn [option_map] in Q2. exists p0. split; congruence.
Qed.
Lemma lookup_double_shape P k p : wfP P -> lookup double_eqb (doubles P) k = Some p ->
  exists p0, lookup double_eqb doubleTable k = Some p0 /\ dsh p = dsh p0.
Proof.
  intros H E. destruct (wf_double P k H) as (q & Q1 & Q2). assert (q = p) by congruence. subst q.
  destruct (lookup double_eqb doubleTable k) as [p0|]; [|discriminate]. cbn [option_map] in Q2. exists p0. split; congruence.
Qed.

Lemma set_int_outcome P k v : wfP P -> is_int v ->
  (exists P', set_int P k v = Done P' /\ declared_int k v) \/ (set_int P k v = Exit1 /\ ~ declared_int k v).
Proof.
  intros W V. destruct (wf_int P k W) as (p & E & _). destruct (lookup_int_shape P k p W E) as (p0 & L & S).
  unfold set_int. rewrite E. unfold i_set.
  pose proof (int_allowed_declared k p0 {| ip_name := ip_name p; ip_val := v; ip_min := ip_min p; ip_max := ip_max p; ip_allowed := ip_allowed p |} L S V) as D.
  cbn [ip_val] in D |- *. destruct (i_val_is_allowed _ _).
  - left. eexists. split; [reflexivity|]. apply D. reflexivity.
  - right. split; [reflexivity|]. intro C. apply D in C. discriminate.
Qed.

Lemma set_by_name_done st P n t : wfP P -> exists P', set_by_name st P n t = Done (P', true) /\
  set_int P CUTLIMIT (int_from t) = Done P'.
Proof.
  intro W. rewrite set_by_name_is by exact W.
  destruct (set_int_outcome P CUTLIMIT (int_from t) W (int_from_is_int t)) as [(P' & E & _)|[_ C]].
  - rewrite E. exists P'. auto.
  - exfalso. apply C. exact I.
Qed.
Lemma wf_read st P ls P' : wfP P -> read_lines st P ls = Done P' -> wfP P'.
Proof.
  revert P. induction ls as [|l ls IH]; intros P W; cbn [read_lines].
  - intro H. injection H as <-. exact W.
  - destruct (getline "," l) as [[n rest]|]; [|apply IH, W].
    destruct (getline "," rest) as [[tok r']|]; [|discriminate].
    destruct (set_by_name_done st P n tok W) as (P1 & E & E1). rewrite E.
    apply IH. eapply wf_set_int; [exact W|apply int_from_is_int|exact E1].
Qed.
Lemma reach_wf st P : reach st P -> wfP P.
Proof.
  induction 1 as [|P c P' _ IH Hc H]; [apply wf_new|]. destruct c as [k v|k v|k s|n t|f]; cbn [exec call_ok] in *.
  - eapply wf_set_int; eassumption.
  - eapply wf_set_double; eassumption.
  - eapply wf_set_string; eassumption.
  - destruct (set_by_name_done st P n t IH) as (P1 & E & E1). rewrite E in H. injection H as <-.
    eapply wf_set_int; [exact IH|apply int_from_is_int|exact E1].
  - destruct f as [ls|]; [|discriminate]. eapply wf_read; eassumption.
Qed.

Lemma set_int_effect P k v P' : set_int P k v = Done P' -> get_int P' k = Done v /\ same_but_int k P P'.
Proof.
  intro H. apply set_int_done in H. destruct H as (p & p' & E & E' & ->). apply i_set_done in E'. destruct E' as (V & _ & _).
  split.
  - unfold get_int. cbn [ints]. rewrite (lookup_update _ int_eqb_eq), E, (proj2 (int_eqb_eq k k) eq_refl). cbn [option_map]. congruence.
  - split; [|split; reflexivity]. intros k' N. unfold get_int. cbn [ints]. rewrite (lookup_update _ int_eqb_eq).
    destruct (int_eqb k' k) eqn:Q; [apply int_eqb_eq in Q; contradiction|reflexivity].
Qed.
Lemma set_double_effect P k v P' : set_double P k v = Done P' -> get_double P' k = Done v /\ same_but_double k P P'.
Proof.
  intro H. apply set_double_done in H. destruct H as (p & p' & E & E' & ->). apply d_set_done in E'. destruct E' as (V & _ & _).
  split.
  - unfold get_double. cbn [doubles]. rewrite (lookup_update _ double_eqb_eq), E, (proj2 (double_eqb_eq k k) eq_refl). cbn [option_map]. congruence.
  - split; [reflexivity|split; [|reflexivity]]. intros k' N. unfold get_double. cbn [doubles]. rewrite (lookup_update _ double_eqb_eq).
    destruct (double_eqb k' k) eqn:Q; [apply double_eqb_eq in Q; contradiction|reflexivity].
Qed.
Lemma set_string_effect P k v P' : set_string P k v = Done P' -> get_string P' k = Done v /\ same_but_string k P P'.
Proof.
  unfold set_string. destruct (lookup string_eqb (strings P) k) as [p|] eqn:E; [|discriminate]. intro H. injection H as <-.
  split.
  - unfold get_string. cbn [strings]. rewrite (lookup_update _ string_eqb_eq), E, (proj2 (string_eqb_eq k k) eq_refl). reflexivity.
  - split; [reflexivity|split; [reflexivity|]]. intros k' N. unfold get_string. cbn [strings]. rewrite (lookup_update _ string_eqb_eq).
    destruct (string_eqb k' k) eqn:Q; [apply string_eqb_eq in Q; contradiction|reflexivity].
Qed.

Lemma double_allowed_declared k p q : lookup double_eqb doubleTable k = Some p -> dsh q = dsh p -> k <> INF ->
  (d_val_is_allowed q (dp_val q) = true <-> dp_val q = DNaN \/ declared_double k (dp_val q)).
Proof.
  intros H E N. injection E as E1 E2 E3. unfold d_val_is_allowed. cbv zeta. rewrite E2, E3. clear E1 E2 E3.
  assert (HM : (10000 < DBL_MAXv)%Q) by reflexivity.
  destruct k; try congruence; cbn in H; injection H as <-; cbn [dp_min dp_max dpar];
    unfold dpar; cbn [dp_min dp_max]; unfold dbl_max, dbl_lowest, fin, declared_double, within; clear N; revert HM; generalize DBL_MAXv; intros M HM;
    destruct (dp_val q) as [v|[|]|];
    unfold d_isInfinity, d_isNegInfinity, d_greaterThanVal, d_lessThanVal, d_isVal, d_sub, d_add, d_le;
    try change (isVal 0 (1 # 1000) EPS7) with false; try change (isVal 0 1 EPS7) with false;
    unfold isVal, EPS7; qabs;
    repeat (qcase1; try lra); cbn [andb orb negb];
    (split; [intro HH; first [discriminate HH | left; reflexivity | right; first [exact I | reflexivity | lra | split; lra]]
            |intros [HH|HH]; first [discriminate HH | reflexivity | contradiction | exfalso; lra | exfalso; destruct HH; lra]]).
Qed.
