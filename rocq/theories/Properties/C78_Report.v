(** C78: the report at the end of a run. *)
From Coq Require Import Lqa.
From Verif Require Import Prelude Model.TextUtil Model.Tolerance Model.Names Model.Analysis Model.BBInfo Model.LogRow Model.Report
  Spec.TextSpec Spec.NameSpec Spec.ReportSpec Proofs.ToleranceP Proofs.NamesP.
#[local] Open Scope Q_scope.
#[local] Open Scope list_scope.

Definition nl : ascii := ascii_of_nat 10.

(** ** Texts *)
Lemma digits_no_nl t : Forall (fun c => (48 <= nat_of_ascii c <= 57)%nat) t -> ~ In nl t.
Proof. intros F H. rewrite Forall_forall in F. specialize (F _ H). unfold nl in F. rewrite nat_ascii_embedding in F by lia. lia. Qed.
Lemma unsigned_no_nl t z : unsigned t z -> ~ In nl t.
Proof. intros (_ & F & _). now apply digits_no_nl. Qed.
Lemma int_no_nl z : ~ In nl (int_text z).
Proof.
  destruct (int_text_spec z) as [U | (u & w & E & U & _)]; [exact (unsigned_no_nl _ _ U)|]. rewrite E. intros [H|H]; [discriminate H|exact (unsigned_no_nl _ _ U H)].
Qed.
Lemma number_no_nl t v : number t v -> ~ In nl t.
Proof.
  intros (sg & man & ex & m & e & -> & M & E & S) H. apply in_app_or in H. destruct H as [H|H].
  - destruct S as [[[-> | ->] _] | [-> _]]; cbn in H; intuition discriminate.
  - apply in_app_or in H. destruct H as [H|H].
    + destruct M as [(z & U & _) | (ip & fp & i & f & -> & U & U' & _)]; [exact (unsigned_no_nl _ _ U H)|].
      apply in_app_or in H. destruct H as [H|[H|H]]; [exact (unsigned_no_nl _ _ U H)|discriminate H|exact (unsigned_no_nl _ _ U' H)].
    + destruct E as [[-> _] | [(u & -> & U) | (u & w & -> & U & _)]]; [exact H| |];
        (apply in_app_or in H; destruct H as [H|H]; [cbn in H; intuition discriminate|exact (unsigned_no_nl _ _ U H)]).
Qed.
Lemma digits_fuel_length f : forall z n, (0 <= z < 10 ^ Z.of_nat n)%Z -> (1 <= n)%nat -> (length (digits_fuel f z) <= n)%nat.
Proof.
  induction f as [|f IH]; intros z n H N; cbn [digits_fuel]; [cbn [length]; lia|].
  destruct (Z.ltb_spec z 10) as [L|L]; [cbn [length]; lia|]. rewrite app_length. cbn [length].
  destruct n as [|[|n]]; [lia|change (10 ^ Z.of_nat 1)%Z with 10%Z in H; lia|].
  specialize (IH (z / 10)%Z (S n)). enough (length (digits_fuel f (z / 10)) <= S n)%nat by lia. apply IH; [|lia].
  split; [apply Z.div_pos; lia|]. apply Z.div_lt_upper_bound; [lia|]. replace (10 * 10 ^ Z.of_nat (S n))%Z with (10 ^ Z.of_nat (S (S n)))%Z; [lia|].
  rewrite (Nat2Z.inj_succ (S n)), Z.pow_succ_r by lia. reflexivity.
Qed.
Lemma int_length z : in_int z -> (length (int_text z) <= 11)%nat.
Proof.
  unfold in_int, Names.INT_MIN, Names.INT_MAX. change (2 ^ 31)%Z with 2147483648%Z. intro H. unfold int_text. destruct (Z.ltb_spec z 0) as [L|L]; cbn [length]; unfold digits.
  - enough (length (digits_fuel (Z.to_nat (Z.log2 (- z) + 1)) (- z)) <= 10)%nat by lia. apply digits_fuel_length; [|lia]. change (10 ^ Z.of_nat 10)%Z with 10000000000%Z. lia.
  - enough (length (digits_fuel (Z.to_nat (Z.log2 z + 1)) z) <= 10)%nat by lia. apply digits_fuel_length; [|lia]. change (10 ^ Z.of_nat 10)%Z with 10000000000%Z. lia.
Qed.
Lemma blanks_no_nl k : ~ In nl (blanks k).
Proof. intro H. apply repeat_spec in H. discriminate H. Qed.
Lemma snprintf_short n t : (length t < n)%nat -> snprintf n t = t.
Proof. intro H. unfold snprintf. apply firstn_all2. lia. Qed.
Lemma pad_length w t : length (pad w t) = Nat.max (length t) (Z.to_nat (Z.abs w)).
Proof. unfold pad, blanks. rewrite app_length, repeat_length. lia. Qed.

Lemma cats_cons x l : cats (x :: l) = cat x (cats l).
Proof. reflexivity. Qed.
Lemma cats_app a b : cats (a ++ b) = cat (cats a) (cats b).
Proof.
  induction a as [|x a IH]; [change (cats [] ) with (Some (@nil ascii)); cbn [app]; destruct (cats b); reflexivity|].
  rewrite <- app_comm_cons, !cats_cons, IH. destruct x, (cats a), (cats b); cbn [cat]; rewrite ?app_assoc; reflexivity.
Qed.
Lemma entry_step (c : bool) pieces rest e (es : list (bool * entry)) : (c = true -> exists l, cats pieces = Some l /\ line_of e l) ->
  (exists ls, cats rest = Some (concat ls) /\ Forall2 line_of (map snd (filter fst es)) ls) ->
  exists ls, cats ((if c then pieces else []) ++ rest) = Some (concat ls) /\ Forall2 line_of (map snd (filter fst ((c, e) :: es))) ls.
Proof.
  intros HC (ls & R & F). destruct c; [|now exists ls]. destruct (HC eq_refl) as (l & P & L). exists (l :: ls). split.
  - rewrite cats_app, P, R. reflexivity.
  - cbn [filter fst map snd]. now constructor.
Qed.

Lemma entry_first pieces rest e (es : list (bool * entry)) : (exists l, cats pieces = Some l /\ line_of e l) ->
  (exists ls, cats rest = Some (concat ls) /\ Forall2 line_of (map snd (filter fst es)) ls) ->
  exists ls, cats (pieces ++ rest) = Some (concat ls) /\ Forall2 line_of (map snd (filter fst ((true, e) :: es))) ls.
Proof. intros H R. exact (entry_step true pieces rest e es (fun _ => H) R). Qed.

(** ** Digits *)
Lemma max_fold l : forall m, let M := fold_left (fun m y => if Qltb m y then y else m) l m in
  m <= M /\ (forall y, In y l -> y <= M) /\ (M = m \/ In M l).
Proof.
  induction l as [|y l IH]; intro m; cbn [fold_left].
  - split; [apply Qle_refl|]. split; [intros y []|now left].
  - destruct (Qltb_reflect m y) as [L|L]; specialize (IH (if Qltb m y then y else m)); cbn zeta in IH.
    + rewrite (proj2 (Qltb_lt _ _) L) in IH. destruct IH as (A & B & C). split; [lra|]. split; [intros z [<- | Hz]; [exact A|now apply B]|].
      destruct C as [C|C]; [right; left; congruence|right; now right].
    + assert (E : Qltb m y = false) by (destruct (Qltb_reflect m y); [contradiction|reflexivity]). rewrite E in IH.
      destruct IH as (A & B & C). apply Qnot_lt_le in L. split; [exact A|]. split; [intros z [<- | Hz]; [lra|now apply B]|].
      destruct C as [C|C]; [now left|right; now right].
Qed.
Lemma max_element_ok x l : let M := max_element (x :: l) in (forall y, In y (x :: l) -> y <= M) /\ In M (x :: l).
Proof.
  cbn [max_element]. destruct (max_fold l x) as (A & B & C). split.
  - intros y [<- | H]; [exact A|now apply B].
  - destruct C as [C|C]; [left; congruence|now right].
Qed.

Lemma inf_iff v : isInfinity v DBL_MAX EPS7 = true <-> DBL_MAX - EPS7 < v.
Proof. apply isInfinity_iff_l, EPS7_pos. Qed.
Lemma inf_false v : isInfinity v DBL_MAX EPS7 = false <-> v <= DBL_MAX - EPS7.
Proof.
  destruct (isInfinity v DBL_MAX EPS7) eqn:E.
  - apply inf_iff in E. split; [discriminate|intro H; exfalso; apply (Qlt_not_le _ _ E H)].
  - split; [intros _; apply Qnot_lt_le; intro H; apply inf_iff in H; congruence|reflexivity].
Qed.
Lemma finite_known v : finite v = Qle_bool (Qabs v) (DBL_MAX - EPS7).
Proof.
  unfold finite. destruct (Qle_bool (Qabs v) (DBL_MAX - EPS7)) eqn:E.
  - apply Qle_bool_le in E. apply inf_false in E. now rewrite E.
  - apply Qle_bool_gt in E. apply inf_iff in E. now rewrite E.
Qed.
Lemma known_iff v : Qle_bool (Qabs v) (DBL_MAX - EPS7) = true <-> known v.
Proof. unfold known. apply Qle_bool_iff. Qed.
Lemma power100_big : power 100 < DBL_MAX - EPS7.
Proof. vm_compute. reflexivity. Qed.
Lemma moderate_known v : moderate v -> ~ DBL_MAX <= v -> known v /\ Qabs v <= power 100.
Proof. intros [H|H] N; [contradiction|]. split; [|exact H]. unfold known. pose proof power100_big. lra. Qed.
Lemma known_not_inf v : known v -> ~ DBL_MAX <= v.
Proof. unfold known. intros K H. pose proof EPS7_pos. revert K. apply Qabs_case; intros; lra. Qed.

Section Report.
Variable F : clib.
Variable b : boundinfo.
Hypothesis LG : log10_ok F.
Hypothesis MOD : forall v, In v (all_bounds b) -> moderate v.
Hypothesis SIZE : (forall v, In v (all_bounds b) -> known v -> v == 0) \/ (exists v, In v (all_bounds b) /\ known v /\ 101 # 10000 <= Qabs v).
Let D := max_digits F b.
Variable vals : list Q.
Hypothesis PG : forall v, In v vals -> known v -> prints_g F (Z.to_nat (D + 8)) v.

Lemma vector_value v : In v (all_bounds b) -> known v -> In (Qabs v) (bound_vector b).
Proof using.
  intros H K. unfold bound_vector. change [b_lp b; b_root b; b_unstr b; b_gmic b; b_vpc b; b_best b; b_worst b; b_ip b] with (all_bounds b).
  apply in_map_iff. exists v. split; [|exact H]. destruct (isInfinity v DBL_MAX EPS7) eqn:E; [|reflexivity].
  apply inf_iff in E. unfold known in K. exfalso. apply (Qlt_not_le _ _ E). eapply Qle_trans; [apply Qle_Qabs|exact K].
Qed.
Lemma vector_from y : In y (bound_vector b) -> y == 0 \/ exists v, In v (all_bounds b) /\ known v /\ y = Qabs v /\ Qabs v <= power 100.
Proof using MOD.
  unfold bound_vector. change [b_lp b; b_root b; b_unstr b; b_gmic b; b_vpc b; b_best b; b_worst b; b_ip b] with (all_bounds b).
  intro H. apply in_map_iff in H. destruct H as (v & <- & H). destruct (isInfinity v DBL_MAX EPS7) eqn:E; [left; reflexivity|right].
  apply inf_false in E. destruct (moderate_known v (MOD v H)) as [K L]; [pose proof EPS7_pos; intro; lra|]. now exists v.
Qed.
Definition top := max_element (bound_vector b).
Lemma top_ge v : In v (all_bounds b) -> known v -> Qabs v <= top.
Proof using.
  intros H K. pose proof (vector_value v H K) as V. unfold top. revert V. unfold bound_vector. cbn [map]. apply max_element_ok.
Qed.
Lemma top_from : top == 0 \/ exists v, In v (all_bounds b) /\ known v /\ top = Qabs v /\ Qabs v <= power 100.
Proof using MOD. apply vector_from. unfold top, bound_vector. cbn [map]. apply max_element_ok. Qed.

Lemma digits_range : (0 <= D <= 101)%Z /\ top < power D.
Proof using LG MOD SIZE.
  unfold D, max_digits. fold top. destruct (Qltb_reflect 0 top) as [L|L].
  - assert (TA : Qabs top == top) by (apply Qabs_pos; lra).
    assert (A0 : 0 < Qabs top) by lra.
    destruct (LG (Qabs top) A0) as (G1 & G2 & G3 & G4).
    assert (U : Qabs top <= power 100). { destruct top_from as [E | (v & _ & _ & E & B)]; [lra|]. rewrite TA, E. exact B. }
    assert (S1 : 101 # 10000 <= Qabs top).
    { destruct SIZE as [Z0 | (v & Hv & K & B)].
      - destruct top_from as [E | (v & Hv & K & E & _)]; [lra|]. specialize (Z0 v Hv K). assert (QA : Qabs v == 0) by (rewrite Z0; reflexivity). rewrite E, QA in L. lra.
      - pose proof (top_ge v Hv K). lra. }
    specialize (G1 100%nat U). specialize (G4 2%nat). change ((101 # 100) * power (- Z.of_nat 2)) with (101 # 10000) in G4.
    assert (G5 : (1 - Z.of_nat 2 <= pf_lg F (Qabs top))%Z) by (apply G4; [lia|exact S1]).
    split; [lia|]. apply Qnot_le_lt. intro B. specialize (G2 (Z.to_nat (pf_lg F (Qabs top) + 1))). rewrite Z2Nat.id in G2 by lia.
    assert (B' : power (pf_lg F (Qabs top) + 1) <= Qabs top) by (eapply Qle_trans; [exact B|apply Qle_Qabs]). specialize (G2 B'). lia.
  - apply Qnot_lt_le in L. split; [lia|]. eapply Qle_lt_trans; [exact L|reflexivity].
Qed.

Lemma value_ok v : In v vals -> known v \/ DBL_MAX <= v -> (known v -> Qabs v <= top) ->
  exists t, string_num (pf_g F) v DBL_MAX D (D + 8) = Some t /\ shows v t /\ ~ In nl t /\ (length t <= 117)%nat.
Proof using LG MOD SIZE PG.
  intros IV H T. destruct digits_range as [R B]. unfold string_num.
  assert (N1 : (D =? -1)%Z = false) by (apply Z.eqb_neq; lia). rewrite N1.
  destruct H as [K|I].
  - assert (E1 : isInfinity v DBL_MAX EPS7 = false).
    { apply inf_false. unfold known in K. eapply Qle_trans; [apply Qle_Qabs|exact K]. }
    assert (E2 : isNegInfinity v (- DBL_MAX) EPS7 = false).
    { destruct (isNegInfinity v (- DBL_MAX) EPS7) eqn:E; [|reflexivity]. apply isNegInfinity_iff_l in E; [|apply EPS7_pos]. exfalso.
      unfold known in K. revert K. apply Qabs_case; intros; pose proof EPS7_pos; pose proof power100_big; assert (0 < power 100) by reflexivity; lra. }
    rewrite E1, E2. replace (0 <=? D)%Z with true by (symmetry; apply Z.leb_le; lia). replace (0 <=? D + 8)%Z with true by (symmetry; apply Z.leb_le; lia). cbn [andb].
    destruct (PG v IV K) as (L & w & N & W). eexists. split; [reflexivity|].
    rewrite snprintf_short by (rewrite pad_length; lia). split; [|split].
    + exists (pf_g F (Z.to_nat (D + 8)) v), (Z.to_nat (Z.abs D) - length (pf_g F (Z.to_nat (D + 8)) v))%nat. split; [reflexivity|]. split.
      * intros _. exists w. split; [exact N|]. specialize (W D). replace (D - Z.of_nat (Z.to_nat (D + 8)))%Z with (-8)%Z in W by lia.
        apply W. specialize (T K). lra.
      * intro H. destruct (known_not_inf v K H).
    + unfold pad. intro H. apply in_app_or in H. destruct H as [H|H]; [exact (number_no_nl _ _ N H)|exact (blanks_no_nl _ H)].
    + rewrite pad_length. lia.
  - assert (E1 : isInfinity v DBL_MAX EPS7 = true) by (apply inf_iff; pose proof EPS7_pos; lra).
    rewrite E1. eexists. split; [reflexivity|]. rewrite snprintf_short by (rewrite pad_length; cbn [txt String.list_ascii_of_string length]; lia). split; [|split].
    + eexists _, _. split; [reflexivity|]. split; [|reflexivity]. intro K. destruct (known_not_inf v K I).
    + unfold pad. intro H. apply in_app_or in H. destruct H as [H|H]; [cbn in H; intuition discriminate|exact (blanks_no_nl _ H)].
    + rewrite pad_length. cbn [txt String.list_ascii_of_string length]. lia.
Qed.

(** The beginning of a line. *)
Lemma start_ok name v note : In v vals -> (length name <= 16)%nat -> (length note <= 60)%nat -> known v \/ DBL_MAX <= v -> (known v -> Qabs v <= top) ->
  exists t, put (cats [Some (name_cell 16 name); string_num (pf_g F) v DBL_MAX D (D + 8); Some note]) =
    Some (name ++ blanks (16 - length name) ++ t ++ note) /\ shows v t /\ ~ In nl t.
Proof using LG MOD SIZE PG.
  intros IV Hn Ho H T. destruct (value_ok v IV H T) as (t & E & S & N & L). exists t. rewrite E. split; [|now split].
  rewrite !cats_cons. cbn [cat cats fold_right put option_map]. unfold name_cell. rewrite firstn_all2 by lia. unfold pad.
  replace (Z.to_nat (Z.abs (Z.of_nat 16))) with 16%nat by lia. rewrite app_nil_r, <- app_assoc. rewrite snprintf_short; [reflexivity|].
  unfold blanks. rewrite !app_length, repeat_length. lia.
Qed.
End Report.

Lemma active_ok n what : in_int n -> (length what <= 10)%nat -> put' (txt ", " ++ int_text n ++ txt " active " ++ what) = Some (txt ", " ++ int_text n ++ txt " active " ++ what).
Proof.
  intros I L. unfold put'. rewrite snprintf_short; [reflexivity|]. pose proof (int_length n I). rewrite !app_length. cbn [txt String.list_ascii_of_string length]. lia.
Qed.
Lemma no_nl_note n g v : ~ In nl (cuts_note n g v).
Proof.
  intro H. unfold cuts_note in H. repeat (apply in_app_or in H; destruct H as [H|H]);
    try (cbn in H; intuition discriminate); try (exact (int_no_nl _ H)).
  - destruct g; [|exact H]. repeat (apply in_app_or in H; destruct H as [H|H]); try (cbn in H; intuition discriminate); exact (int_no_nl _ H).
  - destruct v; [|exact H]. repeat (apply in_app_or in H; destruct H as [H|H]); try (cbn in H; intuition discriminate); exact (int_no_nl _ H).
Qed.
Lemma no_nl_bounds n : ~ In nl (bounds_changed n).
Proof. intro H. unfold bounds_changed in H. repeat (apply in_app_or in H; destruct H as [H|H]); try (cbn in H; intuition discriminate); exact (int_no_nl _ H). Qed.

Ltac use E := match type of E with _ = ?r => match goal with |- context [put ?c] => let H := fresh in assert (H : put c = r) by exact E; rewrite H; clear H end end.
(** If the bounds are infinite (not minus infinite) or of moderate size, and those that are known are all 0 or one is at least
    0.0101: the report is its title and one complete line for every bound that is known, in a fixed order, each with the value to
    8 decimals and the numbers of cuts and active cuts. *)
Theorem report_lines : forall F ig iv hasG hasV b all, log10_ok F ->
  (forall v, In v (all_bounds b) -> moderate v) ->
  ((forall v, In v (all_bounds b) -> known v -> v == 0) \/ (exists v, In v (all_bounds b) /\ known v /\ 101 # 10000 <= Qabs v)) ->
  (forall v, In v (all :: all_bounds b) -> known v -> prints_g F (Z.to_nat (max_digits F b + 8)) v) ->
  (DBL_MAX <= all \/ known all /\ exists v, In v (all_bounds b) /\ known v /\ Qabs all <= Qabs v) ->
  Forall in_int [b_nroot b; b_ngmic b; b_nvpc b; (b_ngmic b + b_nlpc b + b_nvpc b)%Z; ci_ag ig; ci_ag iv; ci_av ig; ci_av iv; ci_aa ig; ci_aa iv] ->
  exists ls, strength_report F ig iv hasG hasV b all = Some (NL ++ txt "## Results from adding cuts ##" ++ NL ++ concat ls) /\
    Forall2 line_of (expected_lines ig iv hasG hasV b all) ls.
Proof.
  intros F ig iv hasG hasV b all LG MOD SIZE PG ALL INT.
  rewrite Forall_forall in INT.
  assert (I1 : in_int (b_nroot b)) by (apply INT; cbn; tauto). assert (I2 : in_int (b_ngmic b)) by (apply INT; cbn; tauto).
  assert (I3 : in_int (b_nvpc b)) by (apply INT; cbn; tauto). assert (I4 : in_int (b_ngmic b + b_nlpc b + b_nvpc b)) by (apply INT; cbn; tauto).
  assert (I5 : in_int (ci_ag ig)) by (apply INT; cbn; tauto). assert (I6 : in_int (ci_ag iv)) by (apply INT; cbn; tauto).
  assert (I7 : in_int (ci_av ig)) by (apply INT; cbn; tauto). assert (I8 : in_int (ci_av iv)) by (apply INT; cbn; tauto).
  assert (I9 : in_int (ci_aa ig)) by (apply INT; cbn; tauto). assert (I10 : in_int (ci_aa iv)) by (apply INT; cbn; tauto). clear INT.
  assert (ST : forall name v note, (length name <= 16)%nat -> (length note <= 60)%nat -> In v (all_bounds b) -> known v \/ DBL_MAX <= v ->
    exists t, put (cats [Some (name_cell 16 name); string_num (pf_g F) v DBL_MAX (max_digits F b) (max_digits F b + 8); Some note]) =
      Some (name ++ blanks (16 - length name) ++ t ++ note) /\ shows v t /\ ~ In nl t).
  { intros name v note Hn Ho Hv Hk. apply (start_ok F b LG MOD SIZE (all :: all_bounds b) PG name v note (or_intror Hv) Hn Ho Hk). intro K. exact (top_ge b v Hv K). }
  assert (KN : forall v, finite v = true -> known v \/ DBL_MAX <= v) by (intros v H; left; rewrite finite_known in H; now apply known_iff).
  assert (LP : known (b_lp b) \/ DBL_MAX <= b_lp b).
  { destruct (Qlt_le_dec (b_lp b) DBL_MAX) as [L|L]; [left|now right]. apply (moderate_known _ (MOD _ (or_introl eq_refl))). lra. }
  assert (SA : exists t, put (cats [Some (name_cell 16 (txt "All: ")); string_num (pf_g F) all DBL_MAX (max_digits F b) (max_digits F b + 8);
      Some (txt " (" ++ int_text (b_ngmic b + b_nlpc b + b_nvpc b) ++ txt " cuts")]) =
      Some (txt "All: " ++ blanks (16 - length (txt "All: ")) ++ t ++ (txt " (" ++ int_text (b_ngmic b + b_nlpc b + b_nvpc b) ++ txt " cuts")) /\ shows all t /\ ~ In nl t).
  { apply (start_ok F b LG MOD SIZE (all :: all_bounds b) PG).
    - now left.
    - cbn; lia.
    - pose proof (int_length _ I4). rewrite !app_length. cbn [txt String.list_ascii_of_string length]. lia.
    - destruct ALL as [A | [A _]]; [now right|now left].
    - intro K. destruct ALL as [A | [_ (v & Hv & Kv & A)]]; [destruct (known_not_inf _ K A)|]. pose proof (top_ge b v Hv Kv). lra. }
  assert (LN : forall n, in_int n -> (length (txt " (" ++ int_text n ++ txt " cuts") <= 60)%nat).
  { intros n I. pose proof (int_length _ I). rewrite !app_length. cbn [txt String.list_ascii_of_string length]. lia. }
  unfold strength_report. cbn zeta.
  match goal with |- context [cats ([?h; ?p1] ++ ?r)] => change ([h; p1] ++ r) with ([h] ++ (if true then [p1] else []) ++ r) end.
  rewrite cats_app.
  match goal with |- context [cat _ (cats ?R)] => assert (G : exists ls, cats R = Some (concat ls) /\ Forall2 line_of (expected_lines ig iv hasG hasV b all) ls) end.
  { unfold expected_lines, expected. rewrite <- !finite_known.
    apply entry_first; [|apply entry_step; [intro C|apply entry_step; [intro C|apply entry_step; [intro C|apply entry_step; [intro C|apply entry_step; [intro C|apply entry_step; [intro C|apply entry_step; [intro C|]]]]]]]].
    - destruct (ST (txt "LP: ") (b_lp b) NL) as (t & E & S & N); [cbn; lia|cbn; lia|now left|exact LP|].
      use E. eexists. split; [rewrite cats_cons; cbn [cat cats fold_right]; now rewrite app_nil_r|].
      exists t. split; [reflexivity|]. split; [exact S|]. cbn [en_note]. now rewrite app_nil_r.
    - destruct (ST (txt "Root: ") (b_root b) (bounds_changed (b_nroot b) ++ NL)) as (t & E & S & N); [cbn; lia| |right; left; reflexivity|now apply KN|].
      { pose proof (int_length _ I1). unfold bounds_changed. rewrite !app_length. cbn [txt NL String.list_ascii_of_string length]. lia. }
      unfold bounds_changed in E. rewrite <- !app_assoc in E. use E. eexists. split; [rewrite cats_cons; cbn [cat cats fold_right]; now rewrite app_nil_r|].
      exists t. split; [cbn [en_name en_note]; unfold bounds_changed; rewrite <- !app_assoc; reflexivity|]. split; [exact S|].
      cbn [en_note]. intro H. apply in_app_or in H. destruct H as [H|H]; [exact (N H)|exact (no_nl_bounds _ H)].
    - destruct (ST (txt "Unstr GMICs: ") (b_unstr b) _ ltac:(cbn; lia) (LN _ I2) ltac:(right; right; left; reflexivity) (KN _ C)) as (t & E & S & N).
      use E. rewrite !cats_cons. cbn [cat cats fold_right]. eexists. split; [reflexivity|].
      exists t. split; [cbn [en_name en_note]; unfold cuts_note; rewrite <- !app_assoc; reflexivity|]. split; [exact S|].
      cbn [en_note]. intro H. apply in_app_or in H. destruct H as [H|H]; [exact (N H)|exact (no_nl_note _ _ _ H)].
    - destruct (ST (txt "GMICs: ") (b_gmic b) _ ltac:(cbn; lia) (LN _ I2) ltac:(right; right; right; left; reflexivity) (KN _ C)) as (t & E & S & N).
      use E. rewrite !active_ok by (try assumption; cbn; lia).
      destruct hasV; cbn [app]; rewrite !cats_cons; cbn [cat cats fold_right]; (eexists; split; [reflexivity|]; exists t;
        split; [cbn [en_name en_note when_]; unfold cuts_note; rewrite <- !app_assoc; reflexivity|]; split; [exact S|];
        cbn [en_note]; intro H; apply in_app_or in H; destruct H as [H|H]; [exact (N H)|exact (no_nl_note _ _ _ H)]).
    - apply andb_prop in C. destruct C as [CV C].
      destruct (ST (txt "VPCs: ") (b_vpc b) _ ltac:(cbn; lia) (LN _ I3) ltac:(right; right; right; right; left; reflexivity) (KN _ C)) as (t & E & S & N).
      use E. rewrite !active_ok by (try assumption; cbn; lia).
      destruct hasG; cbn [app]; rewrite !cats_cons; cbn [cat cats fold_right]; (eexists; split; [reflexivity|]; exists t;
        split; [cbn [en_name en_note when_]; unfold cuts_note; rewrite <- !app_assoc; reflexivity|]; split; [exact S|];
        cbn [en_note]; intro H; apply in_app_or in H; destruct H as [H|H]; [exact (N H)|exact (no_nl_note _ _ _ H)]).
    - destruct SA as (t & E & S & N). use E. rewrite !active_ok by (try assumption; cbn; lia).
      destruct hasG, hasV; cbn [app]; rewrite !cats_cons; cbn [cat cats fold_right]; (eexists; split; [reflexivity|]; exists t;
        split; [cbn [en_name en_note when_]; unfold cuts_note; rewrite <- !app_assoc; reflexivity|]; split; [exact S|];
        cbn [en_note]; intro H; apply in_app_or in H; destruct H as [H|H]; [exact (N H)|exact (no_nl_note _ _ _ H)]).
    - destruct (ST (txt "Disjunctive lb: ") (b_best b) NL) as (t & E & S & N); [cbn; lia|cbn; lia|cbn; tauto|now apply KN|].
      use E. eexists. split; [rewrite cats_cons; cbn [cat cats fold_right]; now rewrite app_nil_r|].
      exists t. split; [reflexivity|]. split; [exact S|]. cbn [en_note]. now rewrite app_nil_r.
    - destruct (ST (txt "Disjunctive ub: ") (b_worst b) NL) as (t & E & S & N); [cbn; lia|cbn; lia|cbn; tauto|now apply KN|].
      use E. eexists. split; [rewrite cats_cons; cbn [cat cats fold_right]; now rewrite app_nil_r|].
      exists t. split; [reflexivity|]. split; [exact S|]. cbn [en_note]. now rewrite app_nil_r.
    - rewrite <- (app_nil_r (if finite (b_ip b) then _ else _)). apply entry_step; [intro C|exists []; split; [reflexivity|constructor]].
      destruct (ST (txt "IP: ") (b_ip b) NL) as (t & E & S & N); [cbn; lia|cbn; lia|cbn; tauto|now apply KN|].
      use E. eexists. split; [rewrite cats_cons; cbn [cat cats fold_right]; now rewrite app_nil_r|].
      exists t. split; [reflexivity|]. split; [exact S|]. cbn [en_note]. now rewrite app_nil_r. }
  destruct G as (ls & G & G2). exists ls. split; [|exact G2]. rewrite G. reflexivity.
Qed.
Print Assumptions report_lines.

(** A C library: the texts have six decimals, which is exact for the numbers below; the logarithm is exact. *)
Fixpoint lgf (f : nat) (z : Z) : Z := match f with O => 0%Z | S f => if (z <? 10)%Z then 0%Z else (1 + lgf f (z / 10))%Z end.
Lemma lgf_iff f : forall z (k : nat), (1 <= z < 2 ^ Z.of_nat f)%Z -> (10 ^ Z.of_nat k <= z <-> Z.of_nat k <= lgf f z)%Z.
Proof.
  induction f as [|f IH]; intros z k H; [change (2 ^ Z.of_nat 0)%Z with 1%Z in H; lia|]. cbn [lgf].
  rewrite Nat2Z.inj_succ, Z.pow_succ_r in H by lia. destruct (Z.ltb_spec z 10) as [L|L].
  - destruct k as [|k]; [change (10 ^ Z.of_nat 0)%Z with 1%Z; lia|]. rewrite Nat2Z.inj_succ, Z.pow_succ_r by lia.
    pose proof (Z.pow_pos_nonneg 10 (Z.of_nat k) ltac:(lia) ltac:(lia)). lia.
  - pose proof (Z.div_mod z 10 ltac:(lia)). pose proof (Z.mod_pos_bound z 10 ltac:(lia)).
    assert (HZ : (1 <= z / 10 < 2 ^ Z.of_nat f)%Z) by lia.
    destruct k as [|k].
    + change (10 ^ Z.of_nat 0)%Z with 1%Z. specialize (IH (z / 10)%Z 0%nat HZ). change (10 ^ Z.of_nat 0)%Z with 1%Z in IH. lia.
    + specialize (IH (z / 10)%Z k HZ). rewrite Nat2Z.inj_succ, Z.pow_succ_r by lia. lia.
Qed.
Definition lgZ (z : Z) : Z := lgf (Z.to_nat (Z.log2 z + 1)) z.
Lemma lgZ_iff z (k : nat) : (1 <= z)%Z -> (10 ^ Z.of_nat k <= z <-> Z.of_nat k <= lgZ z)%Z.
Proof.
  intro H. apply lgf_iff. split; [exact H|]. pose proof (Z.log2_nonneg z). rewrite Z2Nat.id by lia. apply Z.log2_spec. lia.
Qed.
Lemma lgZ_nonneg z : (1 <= z)%Z -> (0 <= lgZ z)%Z.
Proof. intro H. change 0%Z with (Z.of_nat 0). apply lgZ_iff; [exact H|]. change (10 ^ Z.of_nat 0)%Z with 1%Z. lia. Qed.
Definition exF : clib := {| pf_g := fun _ x => double_text x; pf_f := fun _ x => double_text x;
  pf_lg := fun x => if Qle_bool 1 x then lgZ (Qfloor x) else (- lgZ (Qfloor (/ x)))%Z |}.
Lemma power_pos k : (0 <= k)%Z -> power k = inject_Z (10 ^ k).
Proof. intro H. unfold power. replace (0 <=? k)%Z with true by (symmetry; apply Z.leb_le; exact H). reflexivity. Qed.
Lemma floor_ge x z : inject_Z z <= x <-> (z <= Qfloor x)%Z.
Proof.
  split; intro H.
  - rewrite <- (Qfloor_Z z). now apply Qfloor_resp_le.
  - eapply Qle_trans; [|apply Qfloor_le]. now apply inject_Z_le || (rewrite <- Zle_Qle; exact H).
Qed.
Lemma inv_le x k : 0 < x -> (0 <= k)%Z -> (x <= power (- k) <-> (10 ^ k <= Qfloor (/ x))%Z).
Proof.
  intros X K. rewrite <- floor_ge. assert (P : 0 < inject_Z (10 ^ k)) by (rewrite <- (Zlt_Qlt 0); apply Z.pow_pos_nonneg; lia).
  assert (E : power (- k) == / inject_Z (10 ^ k)).
  { unfold power. destruct (Z.leb_spec 0 (- k)) as [L|L]; [|rewrite Z.opp_involutive; reflexivity]. replace k with 0%Z by lia. reflexivity. }
  rewrite E. split; intro H.
  - apply Qle_shift_inv_l; [exact X|]. apply (Qmult_le_l _ _ (inject_Z (10 ^ k))) in H; [|exact P]. rewrite Qmult_inv_r in H by lra. lra.
  - apply Qle_shift_inv_l; [exact P|]. apply (Qmult_le_l _ _ x) in H; [|exact X]. rewrite Qmult_inv_r in H by lra. lra.
Qed.
Lemma exF_log : log10_ok exF.
Proof.
  intros x X. cbn [pf_lg exF].
  destruct (Qle_bool 1 x) eqn:E.
  - apply Qle_bool_le in E. assert (F1 : (1 <= Qfloor x)%Z) by (apply floor_ge; exact E). pose proof (lgZ_nonneg _ F1) as N.
    split; [|split; [|split]]; intros k.
    + intro H. rewrite power_pos in H by lia. destruct (Z.le_gt_cases (lgZ (Qfloor x)) (Z.of_nat k)) as [L|L]; [exact L|exfalso].
      pose proof (proj2 (lgZ_iff (Qfloor x) (S k) F1) ltac:(lia)) as B. apply floor_ge in B.
      rewrite Nat2Z.inj_succ, Z.pow_succ_r in B by lia. assert (C : inject_Z (10 * 10 ^ Z.of_nat k) <= inject_Z (10 ^ Z.of_nat k)) by lra. rewrite <- Zle_Qle in C.
      pose proof (Z.pow_pos_nonneg 10 (Z.of_nat k) ltac:(lia) ltac:(lia)). lia.
    + intro H. rewrite power_pos in H by lia. apply lgZ_iff; [exact F1|]. now apply floor_ge.
    + intro H. apply (inv_le x) in H; [|exact X|lia].
      assert (I : / x <= 1) by (apply Qle_shift_inv_r; [exact X|lra]). 
      assert (FI : (Qfloor (/ x) <= 1)%Z) by (rewrite <- (Qfloor_Z 1); now apply Qfloor_resp_le).
      destruct k as [|k]; [|rewrite Nat2Z.inj_succ, Z.pow_succ_r in H by lia; pose proof (Z.pow_pos_nonneg 10 (Z.of_nat k) ltac:(lia) ltac:(lia)); lia].
      (* x is 1 or more and at most power 0 only if it is 1 *)
      change (10 ^ Z.of_nat 0)%Z with 1%Z in H. apply floor_ge in H. change (inject_Z 1) with 1 in H.
      assert (X1 : x <= 1). { apply (Qmult_le_l _ _ x) in H; [|exact X]. rewrite Qmult_inv_r in H by lra. lra. }
      assert (FX : (Qfloor x <= 1)%Z) by (rewrite <- (Qfloor_Z 1); now apply Qfloor_resp_le).
      replace (Qfloor x) with 1%Z by lia. vm_compute. discriminate.
    + intros K _. lia.
  - apply Qle_bool_gt in E. assert (F1 : (1 <= Qfloor (/ x))%Z). { apply floor_ge. change (inject_Z 1) with 1. apply Qle_shift_inv_l; [exact X|lra]. }
    pose proof (lgZ_nonneg _ F1) as N. split; [|split; [|split]]; intros k.
    + intros _. lia.
    + intro H. rewrite power_pos in H by lia. exfalso. assert (1 <= inject_Z (10 ^ Z.of_nat k)) by (rewrite <- (Zle_Qle 1); pose proof (Z.pow_pos_nonneg 10 (Z.of_nat k) ltac:(lia) ltac:(lia)); lia). lra.
    + intro H. apply (inv_le x) in H; [|exact X|lia]. apply lgZ_iff in H; [|exact F1]. lia.
    + intros K H. destruct (Z.le_gt_cases (Z.of_nat k) (lgZ (Qfloor (/ x)))) as [L|L]; [exfalso|lia].
      apply lgZ_iff in L; [|exact F1]. apply (inv_le x) in L; [|exact X|lia]. assert (P : 0 < power (- Z.of_nat k)) by lra. lra.
Qed.
Lemma power_nonneg e : 0 <= power e.
Proof.
  unfold power. destruct (Z.leb_spec 0 e) as [L|L].
  - rewrite <- (Zle_Qle 0). apply Z.pow_nonneg. lia.
  - apply Qinv_le_0_compat. rewrite <- (Zle_Qle 0). apply Z.pow_nonneg. lia.
Qed.
Lemma unsigned_dec t : t <> [] -> forallb (fun c => Nat.leb 48 (nat_of_ascii c) && Nat.leb (nat_of_ascii c) 57) t = true -> unsigned t (dec_value t).
Proof.
  intros N F. split; [exact N|]. split; [|reflexivity]. rewrite forallb_forall in F. rewrite Forall_forall. intros c Hc. specialize (F c Hc).
  apply andb_prop in F. destruct F as [A B]. apply Nat.leb_le in A. apply Nat.leb_le in B. lia.
Qed.
(** A number printed exactly. *)
Lemma exact_number t ip fp v : t = ip ++ "."%char :: fp -> ip <> [] -> fp <> [] ->
  forallb (fun c => Nat.leb 48 (nat_of_ascii c) && Nat.leb (nat_of_ascii c) 57) (ip ++ fp) = true ->
  v == inject_Z (dec_value ip) + inject_Z (dec_value fp) / inject_Z (10 ^ Z.of_nat (length fp)) -> number t v.
Proof.
  intros -> A B C D. rewrite forallb_app in C. apply andb_prop in C. destruct C as [C1 C2].
  exists [], (ip ++ "."%char :: fp), [], v, 0%Z. split; [now rewrite app_nil_r|]. split; [right; exists ip, fp, (dec_value ip), (dec_value fp)|].
  - split; [reflexivity|]. split; [now apply unsigned_dec|]. split; [now apply unsigned_dec|exact D].
  - split; [left; now split|]. left. split; [now left|]. unfold power. cbn [Z.leb Z.compare]. change (inject_Z (10 ^ 0)) with 1. ring.
Qed.
Lemma exact_g p ip v : length ip = 2%nat -> (1 <= p)%nat -> forall fp, double_text v = ip ++ "."%char :: fp -> length fp = 6%nat ->
  forallb (fun c => Nat.leb 48 (nat_of_ascii c) && Nat.leb (nat_of_ascii c) 57) (ip ++ fp) = true ->
  v == inject_Z (dec_value ip) + inject_Z (dec_value fp) / inject_Z (10 ^ Z.of_nat (length fp)) -> prints_g exF p v.
Proof.
  intros L P fp E LF C D. split.
  - cbn [pf_g exF]. rewrite E, app_length, L. cbn [length]. lia.
  - exists v. split.
    + cbn [pf_g exF]. eapply exact_number; [exact E|destruct ip; discriminate|destruct fp; discriminate|exact C|exact D].
    + intros e _. assert (Z0 : v - v == 0) by ring. rewrite Z0. change (Qabs 0) with 0. pose proof (power_nonneg (e - Z.of_nat p)). lra.
Qed.
Ltac exact2 := match goal with |- prints_g exF ?p ?v => let t := eval vm_compute in (double_text v) in
  match t with ?a :: ?c :: _ :: ?fp => apply (exact_g p [a; c] v eq_refl ltac:(vm_compute; lia) fp); [vm_compute; reflexivity|reflexivity|vm_compute; reflexivity|vm_compute; reflexivity] end end.

(** A run with four Gomory cuts and three VPCs. *)
Definition exb : boundinfo := {| b_lp := 25 # 2; b_best := 27 # 2; b_worst := 20; b_root := DBL_MAX; b_ip := 14; b_lpc := DBL_MAX; b_unstr := 51 # 4; b_gmic := 13;
  b_vpc := 53 # 4; b_gmicvpc := 53 # 4; b_nroot := 0; b_ngmic := 4; b_nlpc := 0; b_nvpc := 3 |}.
Example report_case : log10_ok exF /\ (forall v, In v (all_bounds exb) -> moderate v) /\
  (exists v, In v (all_bounds exb) /\ known v /\ 101 # 10000 <= Qabs v) /\
  (forall v, In v ((27 # 2) :: all_bounds exb) -> known v -> prints_g exF (Z.to_nat (max_digits exF exb + 8)) v) /\
  (exists v, In v (all_bounds exb) /\ known v /\ Qabs (27 # 2) <= Qabs v) /\
  strength_report exF ci_new ci_new true true exb (27 # 2) = Some (NL ++ txt "## Results from adding cuts ##" ++ NL ++
    txt "LP:             12.500000" ++ NL ++ txt "Unstr GMICs:    12.750000 (4 cuts)" ++ NL ++ txt "GMICs:          13.000000 (4 cuts, 0 active GMICs, 0 active VPCs)" ++ NL ++
    txt "VPCs:           13.250000 (3 cuts, 0 active GMICs, 0 active VPCs)" ++ NL ++ txt "All:            13.500000 (7 cuts, 0 active GMICs, 0 active VPCs)" ++ NL ++
    txt "Disjunctive lb: 13.500000" ++ NL ++ txt "Disjunctive ub: 20.000000" ++ NL ++ txt "IP:             14.000000" ++ NL).
Proof.
  split; [exact exF_log|]. split; [|split; [|split; [|split]]].
  - intros v H. cbn [all_bounds exb b_lp b_root b_unstr b_gmic b_vpc b_best b_worst b_ip In] in H.
    repeat (destruct H as [<- | H]; [first [right; vm_compute; discriminate | left; apply Qle_refl]|]). destruct H.
  - exists 20. split; [cbn; tauto|]. split; vm_compute; discriminate.
  - intros v H K. change (Z.to_nat (max_digits exF exb + 8)) with 10%nat || (replace (Z.to_nat (max_digits exF exb + 8)) with 10%nat by (vm_compute; reflexivity)).
    cbn [all_bounds exb b_lp b_root b_unstr b_gmic b_vpc b_best b_worst b_ip In] in H.
    repeat (destruct H as [<- | H]; [first [solve [exact2] | exfalso; revert K; vm_compute; intro K; apply K; reflexivity]|]). destruct H.
  - exists 20. split; [cbn; tauto|]. split; vm_compute; discriminate.
  - vm_compute. reflexivity.
Qed.

(** ** Where the report goes wrong *)
Lemma cats_some l : (forall x, In x l -> x <> None) -> exists t, cats l = Some t.
Proof.
  induction l as [|x l IH]; intro H; [now exists []|]. rewrite cats_cons. destruct IH as [t ->]; [intros y Hy; apply H; now right|].
  destruct x as [x|]; [|exfalso; apply (H None); [now left|reflexivity]]. eexists. reflexivity.
Qed.
Lemma string_num_some conv x INF d : (0 <= d)%Z -> exists t, string_num conv x INF d (d + 8) = Some t.
Proof.
  intro H. unfold string_num. replace (0 <=? d)%Z with true by (symmetry; apply Z.leb_le; lia). replace (0 <=? d + 8)%Z with true by (symmetry; apply Z.leb_le; lia).
  replace (d =? -1)%Z with false by (symmetry; apply Z.eqb_neq; lia). cbn [andb]. destruct (isInfinity x INF EPS7), (isNegInfinity x (- INF) EPS7); eexists; reflexivity.
Qed.
Lemma firstn_prefix {A} n (a c : list A) : (n <= length a)%nat -> firstn n (a ++ c) = firstn n a.
Proof. intro H. rewrite firstn_app. replace (n - length a)%nat with 0%nat by lia. apply app_nil_r. Qed.
Lemma in_firstn {A} (x : A) n l : In x (firstn n l) -> In x l.
Proof. intro H. rewrite <- (firstn_skipn n l). apply in_or_app. now left. Qed.

(** Refuted: there is one line per bound.  In a run without disjunction the bound of the root keeps its initial value, minus
    infinity; it counts as a number with 309 digits, and the line of the relaxation is filled with blanks to the end of the buffer:
    299 characters without line break, what follows stands on the same line. *)
Theorem no_disjunction_refuted : forall F ig iv hasG hasV b all, log10_ok F -> b_root b == - DBL_MAX ->
  (forall v, In v (all_bounds b) -> - DBL_MAX <= v <= DBL_MAX) -> known (b_lp b) -> prints_g F (Z.to_nat (max_digits F b + 8)) (b_lp b) ->
  exists t rest, strength_report F ig iv hasG hasV b all = Some (NL ++ txt "## Results from adding cuts ##" ++ NL ++ t ++ rest) /\
    firstn 4 t = txt "LP: " /\ length t = 299%nat /\ ~ In nl t.
Proof.
  intros F ig iv hasG hasV b all LG R0 MOD K PG.
  assert (DG : (309 <= max_digits F b)%Z).
  { unfold max_digits. set (m := max_element (bound_vector b)). pose proof EPS7_pos as EP.
    assert (M0 : 0 < DBL_MAX) by reflexivity.
    assert (M : DBL_MAX <= m).
    { assert (V : In (Qabs (b_root b)) (bound_vector b)).
      { unfold bound_vector. apply in_map_iff. exists (b_root b). split; [|right; now left].
        destruct (isInfinity (b_root b) DBL_MAX EPS7) eqn:E; [|reflexivity]. apply inf_iff in E. exfalso. assert (EPS7 <= DBL_MAX) by (vm_compute; discriminate). lra. }
      eapply Qle_trans; [|apply (max_element_ok _ _); exact V]. rewrite R0. rewrite Qabs_opp, Qabs_pos by lra. apply Qle_refl. }
    destruct (Qltb_reflect 0 m) as [L|L]; [|exfalso; lra].
    assert (L' : 0 < Qabs m) by (eapply Qlt_le_trans; [exact L|apply Qle_Qabs]).
    destruct (LG (Qabs m) L') as (_ & G & _). specialize (G 308%nat).
    assert (P : power (Z.of_nat 308) <= Qabs m). { eapply Qle_trans; [|apply Qle_Qabs]. eapply Qle_trans; [|exact M]. vm_compute. discriminate. }
    specialize (G P). lia. }
  set (d := max_digits F b) in *.
  assert (LV : exists t, string_num (pf_g F) (b_lp b) DBL_MAX d (d + 8) = Some t /\ (309 <= length t)%nat /\ ~ In nl t).
  { unfold string_num. unfold known in K.
    assert (E1 : isInfinity (b_lp b) DBL_MAX EPS7 = false) by (apply inf_false; eapply Qle_trans; [apply Qle_Qabs|exact K]).
    assert (E2 : isNegInfinity (b_lp b) (- DBL_MAX) EPS7 = false).
    { destruct (isNegInfinity (b_lp b) (- DBL_MAX) EPS7) eqn:E; [|reflexivity]. apply isNegInfinity_iff_l in E; [|apply EPS7_pos]. exfalso.
      revert K. apply Qabs_case; intros; pose proof EPS7_pos; pose proof power100_big; assert (0 < power 100) by reflexivity; lra. }
    rewrite E1, E2. replace (0 <=? d)%Z with true by (symmetry; apply Z.leb_le; lia). replace (0 <=? d + 8)%Z with true by (symmetry; apply Z.leb_le; lia). cbn [andb].
    eexists. split; [reflexivity|]. destruct PG as (_ & w & N & _). split.
    - unfold snprintf. rewrite firstn_length, pad_length. lia.
    - intro H. apply in_firstn in H. unfold pad in H. apply in_app_or in H. destruct H as [H|H]; [exact (number_no_nl _ _ N H)|exact (blanks_no_nl _ H)]. }
  destruct LV as (t & E & L & N).
  unfold strength_report. cbn zeta. fold d.
  match goal with |- context [cats ([?h; ?p1] ++ ?r)] => assert (R : exists rest, cats r = Some rest); [|change ([h; p1] ++ r) with ([h] ++ [p1] ++ r)] end.
  { apply cats_some.
    assert (ST : forall name v note, put (cats [Some (name_cell 16 name); string_num (pf_g F) v DBL_MAX d (d + 8); Some note]) <> None).
    { intros name v note. destruct (string_num_some (pf_g F) v DBL_MAX d) as [s ->]; [lia|]. discriminate. }
    intros x H. repeat (apply in_app_or in H; destruct H as [H|H]);
      repeat match type of H with In _ (if ?c then _ else _) => destruct c end;
      repeat (apply in_app_or in H; destruct H as [H|H]);
      repeat match type of H with In _ (if ?c then _ else _) => destruct c end; cbn [In] in H;
      repeat (destruct H as [<- | H]; [first [apply ST | discriminate]|]); try (destruct H). }
  destruct R as [rest R]. rewrite cats_app, cats_app, R, E. rewrite !cats_cons. cbn [cat cats fold_right put option_map].
  set (w := name_cell 16 (txt "LP: ")). assert (W : length w = 16%nat) by reflexivity.
  exists (snprintf 300 (w ++ t ++ NL ++ [])), rest. split; [|split; [|split]].
  - unfold put'. rewrite snprintf_short by (vm_compute; lia). rewrite !app_nil_r. cbn [cat]. rewrite <- !app_assoc. reflexivity.
  - reflexivity.
  - unfold snprintf. rewrite firstn_length, !app_length. cbn [NL length]. lia.
  - unfold snprintf. rewrite app_assoc, firstn_prefix by (rewrite app_length; lia). intro H. apply in_firstn in H. apply in_app_or in H.
    destruct H as [H|H]; [|exact (N H)]. revert H. vm_compute. intuition discriminate.
Qed.
Print Assumptions no_disjunction_refuted.
(** A run with Gomory cuts only: four line breaks, two of them in the title, for three lines of bounds and a last one. *)
Definition exg (lp ip : Q) : boundinfo := {| b_lp := lp; b_best := - DBL_MAX; b_worst := - DBL_MAX; b_root := - DBL_MAX; b_ip := ip; b_lpc := DBL_MAX; b_unstr := DBL_MAX; b_gmic := 13;
  b_vpc := 25 # 2; b_gmicvpc := DBL_MAX; b_nroot := 0; b_ngmic := 4; b_nlpc := 0; b_nvpc := 0 |}.
Example no_disjunction_case : prints_g exF (Z.to_nat (max_digits exF (exg (25 # 2) 14) + 8)) (25 # 2) /\
  exists t, strength_report exF ci_new ci_new true false (exg (25 # 2) 14) 13 = Some t /\ count_occ Ascii.ascii_dec t nl = 4%nat.
Proof.
  split.
  - replace (Z.to_nat (max_digits exF (exg (25 # 2) 14) + 8)) with 317%nat by (vm_compute; reflexivity). exact2.
  - eexists. split; [vm_compute; reflexivity|vm_compute; reflexivity].
Qed.

(** Refuted: the report is printed for all values: if the bounds that are known are at most 0.01 and not all 0, the width is
    negative and the call of snprintf lacks an argument (undefined behaviour). *)
Theorem small_values_refuted : forall F ig iv hasG hasV b all, log10_ok F -> (forall v, In v (all_bounds b) -> DBL_MAX <= v \/ Qabs v <= 1 # 100) ->
  known (b_lp b) -> 0 < Qabs (b_lp b) -> strength_report F ig iv hasG hasV b all = None.
Proof.
  intros F ig iv hasG hasV b all LG MOD K P.
  assert (DG : (max_digits F b <= -1)%Z).
  { unfold max_digits. set (m := max_element (bound_vector b)).
    assert (M : Qabs (b_lp b) <= m). { pose proof (top_ge b (b_lp b) (or_introl eq_refl) K) as T. exact T. }
    destruct (Qltb_reflect 0 m) as [L|L]; [|exfalso; lra].
    assert (U : Qabs m <= 1 # 100).
    { assert (V : In m (bound_vector b)) by (apply (max_element_ok _ _)). unfold bound_vector in V.
      change [b_lp b; b_root b; b_unstr b; b_gmic b; b_vpc b; b_best b; b_worst b; b_ip b] with (all_bounds b) in V.
      apply in_map_iff in V. destruct V as (v & E & Hv). rewrite Qabs_pos by lra. rewrite <- E.
      destruct (isInfinity v DBL_MAX EPS7) eqn:I; [vm_compute; discriminate|]. destruct (MOD v Hv) as [B|B]; [|exact B].
      apply inf_false in I. pose proof EPS7_pos. exfalso. lra. }
    destruct (LG (Qabs m) ltac:(rewrite Qabs_pos by lra; exact L)) as (_ & _ & G & _). specialize (G 2%nat U). lia. }
  unfold strength_report. cbn zeta. set (d := max_digits F b) in *.
  assert (E : string_num (pf_g F) (b_lp b) DBL_MAX d (d + 8) = None).
  { unfold string_num. unfold known in K.
    assert (E1 : isInfinity (b_lp b) DBL_MAX EPS7 = false) by (apply inf_false; eapply Qle_trans; [apply Qle_Qabs|exact K]).
    assert (E2 : isNegInfinity (b_lp b) (- DBL_MAX) EPS7 = false).
    { destruct (isNegInfinity (b_lp b) (- DBL_MAX) EPS7) eqn:E; [|reflexivity]. apply isNegInfinity_iff_l in E; [|apply EPS7_pos]. exfalso.
      revert K. apply Qabs_case; intros; pose proof EPS7_pos; pose proof power100_big; assert (0 < power 100) by reflexivity; lra. }
    rewrite E1, E2. replace (0 <=? d)%Z with false by (symmetry; apply Z.leb_gt; lia). reflexivity. }
  match goal with |- cats ([?h; ?p1] ++ ?r) = _ => change ([h; p1] ++ r) with ([h] ++ [p1] ++ r) end.
  rewrite !cats_app, E. reflexivity.
Qed.
Print Assumptions small_values_refuted.
Definition exs : boundinfo := {| b_lp := 1 # 200; b_best := DBL_MAX; b_worst := DBL_MAX; b_root := DBL_MAX; b_ip := 1 # 100; b_lpc := DBL_MAX; b_unstr := DBL_MAX; b_gmic := 1 # 150;
  b_vpc := DBL_MAX; b_gmicvpc := DBL_MAX; b_nroot := 0; b_ngmic := 1; b_nlpc := 0; b_nvpc := 0 |}.
Example small_case : (forall v, In v (all_bounds exs) -> DBL_MAX <= v \/ Qabs v <= 1 # 100) /\ known (b_lp exs) /\ 0 < Qabs (b_lp exs).
Proof.
  split; [|split; vm_compute; [discriminate|reflexivity]]. intros v H. cbn [all_bounds exs b_lp b_root b_unstr b_gmic b_vpc b_best b_worst b_ip In] in H.
  repeat (destruct H as [<- | H]; [first [right; vm_compute; discriminate | left; apply Qle_refl]|]). destruct H.
Qed.

(** Refuted: the bound with all cuts is shown whenever there are cuts: with VPCs only it has no line. *)
Theorem vpc_only_refuted : forall ig iv hasG hasV b all, (b_ngmic b + b_nlpc b <= 0)%Z -> forall e, In e (expected_lines ig iv hasG hasV b all) -> en_name e <> txt "All: ".
Proof.
  intros ig iv hasG hasV b all Z0 e H. unfold expected_lines in H. apply in_map_iff in H. destruct H as ([c e'] & <- & H). apply filter_In in H. cbn [snd fst] in *.
  destruct H as [H C]. unfold expected in H. cbn [In] in H. repeat (destruct H as [H|H]; [injection H as <- <-; cbn [en_name]; try discriminate|]); [|destruct H].
  apply Z.ltb_lt in C. lia.
Qed.
Print Assumptions vpc_only_refuted.

(** ** The table *)
Lemma app_cell (a c : list ascii) k : length a = k -> firstn 15 (skipn k (a ++ c)) = firstn 15 c.
Proof. intro H. rewrite skipn_app, skipn_all2 by lia. cbn [app]. replace (k - length a)%nat with 0%nat by lia. reflexivity. Qed.
Lemma pad15 t : (length t <= 15)%nat -> length (pad 15 t) = 15%nat.
Proof. intro H. rewrite pad_length. lia. Qed.
Lemma concat_cells (cells : list text) : Forall (fun c => length c = 15%nat) cells ->
  forall k c name rest, nth_error cells k = Some c -> length name = 10%nat -> column k (name ++ concat cells ++ rest) = c.
Proof.
  intros F k c name rest N L. unfold column. revert k c N name L rest.
  enough (G : forall k c, nth_error cells k = Some c -> forall p rest, firstn 15 (skipn (length p + 15 * k) (p ++ concat cells ++ rest)) = c).
  { intros k c N name L rest. specialize (G k c N name rest). rewrite L in G. exact G. }
  induction F as [|x cells Hx F IH]; intros k c N p rest; [destruct k; discriminate N|]. destruct k as [|k]; cbn [nth_error] in N.
  - injection N as ->. rewrite Nat.add_0_r || idtac. replace (length p + 15 * 0)%nat with (length p) by lia.
    rewrite app_cell by reflexivity. cbn [concat]. rewrite <- app_assoc, firstn_prefix by lia. apply firstn_all2. lia.
  - specialize (IH k c N (p ++ x) rest). rewrite app_length, Hx in IH. cbn [concat]. rewrite <- !app_assoc in *.
    replace (length p + 15 * S k)%nat with (length p + 15 + 15 * k)%nat by lia. exact IH.
Qed.
Lemma cats_map_put l : (forall t, In t l -> (length t < 300)%nat) -> cats (map put (map Some l)) = Some (concat l).
Proof.
  induction l as [|t l IH]; intro H; [reflexivity|]. cbn [map]. rewrite cats_cons, IH by (intros u Hu; apply H; now right).
  cbn [put option_map cat concat]. rewrite snprintf_short by (apply H; now left). reflexivity.
Qed.

Lemma num_cell F v : (bb_known v \/ BB_INF <= v \/ v <= - BB_INF) -> (bb_known v -> prints_f F 2 v /\ (length (pf_f F 2 v) <= 15)%nat) ->
  exists t, string_num (pf_f F) v BB_INF 15 2 = Some (pad 15 t) /\ (length t <= 15)%nat /\ shown_num v t.
Proof.
  intros H P. pose proof EPS7_pos as EP. assert (B0 : EPS7 < BB_INF) by reflexivity. unfold string_num. cbn [Z.eqb Z.leb Z.compare Pos.compare Pos.compare_cont andb].
  assert (IN : isInfinity v BB_INF EPS7 = true <-> BB_INF - EPS7 < v) by (apply isInfinity_iff_l, EPS7_pos).
  assert (NE : isNegInfinity v (- BB_INF) EPS7 = true <-> v < - BB_INF + EPS7) by (apply isNegInfinity_iff_l, EPS7_pos).
  destruct H as [K | [I | I]].
  - assert (BD : - (BB_INF - EPS7) <= v <= BB_INF - EPS7) by (apply Qabs_Qle_condition; exact K).
    destruct (isInfinity v BB_INF EPS7); [destruct IN as [IN _]; specialize (IN eq_refl); lra|].
    destruct (isNegInfinity v (- BB_INF) EPS7); [destruct NE as [NE _]; specialize (NE eq_refl); lra|].
    destruct (P K) as [(w & N & W) L]. exists (pf_f F 2 v). split; [|split; [exact L|]].
    + change (Z.to_nat 2) with 2%nat. rewrite snprintf_short by (rewrite pad15; lia). reflexivity.
    + split; [intros _; exists w; split; [exact N|exact W]|split; intro; lra].
  - rewrite (proj2 IN) by lra. exists (txt "'inf'"). split; [rewrite snprintf_short by (vm_compute; lia); reflexivity|]. split; [vm_compute; lia|].
    split; [intro K; exfalso; assert (BD : - (BB_INF - EPS7) <= v <= BB_INF - EPS7) by (apply Qabs_Qle_condition; exact K); lra|]. split; [reflexivity|intro; lra].
  - destruct (isInfinity v BB_INF EPS7); [destruct IN as [IN _]; specialize (IN eq_refl); lra|]. rewrite (proj2 NE) by lra.
    exists (txt "'-inf'"). split; [rewrite snprintf_short by (vm_compute; lia); reflexivity|]. split; [vm_compute; lia|].
    split; [intro K; exfalso; assert (BD : - (BB_INF - EPS7) <= v <= BB_INF - EPS7) by (apply Qabs_Qle_condition; exact K); lra|]. split; [intro; lra|reflexivity].
Qed.
Lemma int_cell z : (length (int_text z) <= 15)%nat -> string_int z 15 = pad 15 (int_text z).
Proof. intro H. unfold string_int. apply snprintf_short. rewrite pad15; lia. Qed.

Definition header : text := pad 10 [] ++ concat (map (pad 15) [txt "Obj"; txt "Bound"; txt "Iters"; txt "Nodes"; txt "Root passes"; txt "First cut pass"; txt "Last cut pass"; txt "Root time"; txt "Last sol time"; txt "Time"]).

Lemma row_ok F name i : (length name <= 10)%nat -> fits F i -> exists row, bb_row F name i = Some (row ++ NL) /\ row_reads header row name i.
Proof.
  intros HN [FN FI].
  assert (C : forall v, In v (nums_of i) -> exists t, string_num (pf_f F) v BB_INF 15 2 = Some (pad 15 t) /\ (length t <= 15)%nat /\ shown_num v t).
  { intros v Hv. destruct (FN v Hv) as [A B]. now apply num_cell. }
  destruct (C (bb_obj i)) as (t1 & E1 & L1 & S1); [cbn; tauto|]. destruct (C (bb_bound i)) as (t2 & E2 & L2 & S2); [cbn; tauto|].
  destruct (C (bb_first_cut_pass i)) as (t3 & E3 & L3 & S3); [cbn; tauto|]. destruct (C (bb_last_cut_pass i)) as (t4 & E4 & L4 & S4); [cbn; tauto|].
  destruct (C (bb_root_time i)) as (t5 & E5 & L5 & S5); [cbn; tauto|]. destruct (C (bb_last_sol_time i)) as (t6 & E6 & L6 & S6); [cbn; tauto|].
  destruct (C (bb_time i)) as (t7 & E7 & L7 & S7); [cbn; tauto|].
  assert (I1 : (length (int_text (bb_iters i)) <= 15)%nat) by (apply FI; cbn; tauto). assert (I2 : (length (int_text (bb_nodes i)) <= 15)%nat) by (apply FI; cbn; tauto).
  assert (I3 : (length (int_text (bb_root_passes i)) <= 15)%nat) by (apply FI; cbn; tauto).
  set (texts := [t1; t2; int_text (bb_iters i); int_text (bb_nodes i); int_text (bb_root_passes i); t3; t4; t5; t6; t7]).
  assert (LT : Forall (fun t => (length t <= 15)%nat) texts) by (unfold texts; repeat (apply Forall_cons; [assumption|]); apply Forall_nil).
  assert (LC : Forall (fun c => length c = 15%nat) (map (pad 15) texts)).
  { rewrite Forall_forall in *. intros c Hc. apply in_map_iff in Hc. destruct Hc as (t & <- & Ht). apply pad15, LT, Ht. }
  assert (LN : length (pad 10 name) = 10%nat) by (rewrite pad_length; lia).
  exists (pad 10 name ++ concat (map (pad 15) texts)). split.
  - unfold bb_row. rewrite E1, E2, E3, E4, E5, E6, E7, !int_cell by assumption.
    change (cats (map put (map Some ([pad 10 name] ++ map (pad 15) texts ++ [NL]))) = Some ((pad 10 name ++ concat (map (pad 15) texts)) ++ NL)).
    rewrite cats_map_put.
    + f_equal. rewrite !concat_app. cbn [concat]. now rewrite !app_nil_r, <- app_assoc.
    + intros t Ht. apply in_app_or in Ht. destruct Ht as [[<- | []] | Ht]; [lia|]. apply in_app_or in Ht. destruct Ht as [Ht | [<- | []]]; [|cbn; lia].
      rewrite Forall_forall in LC. rewrite (LC t Ht). lia.
  - split.
    + rewrite firstn_prefix by lia. rewrite firstn_all2 by lia. eexists. reflexivity.
    + intros k title shown HK. assert (HC : exists t, nth_error texts k = Some t /\ shown t).
      { unfold columns_of in HK. unfold texts. do 10 (destruct k as [|k]; [injection HK as <- <-; eexists; split; [reflexivity|first [assumption | apply int_text_spec]]|]). destruct k; discriminate HK. }
      destruct HC as (t & HT & HS). split.
      * unfold header. set (titles := [txt "Obj"; _; _; _; _; _; _; _; _; _]).
        assert (TT : nth_error titles k = Some title).
        { unfold columns_of in HK. unfold titles. do 10 (destruct k as [|k]; [injection HK as <- <-; reflexivity|]). destruct k; discriminate HK. }
        rewrite <- (app_nil_r (concat (map (pad 15) titles))).
        rewrite (concat_cells (map (pad 15) titles)) with (c := pad 15 title); [eexists; reflexivity| |now rewrite nth_error_map, TT|reflexivity].
        unfold titles. repeat constructor.
      * exists t. split; [|exact HS]. rewrite <- (app_nil_r (concat (map (pad 15) texts))).
        rewrite (concat_cells (map (pad 15) texts)) with (c := pad 15 t); [eexists; reflexivity|exact LC|now rewrite nth_error_map, HT|exact LN].
Qed.

Lemma digit_rem mode : (0 <= mode)%Z -> (0 <? Z.rem mode 10)%Z = negb (digit 0 mode =? 0)%Z /\
  (0 <? Z.quot (Z.rem mode 100 - Z.rem mode 10) 10)%Z = negb (digit 1 mode =? 0)%Z /\ (0 <? Z.quot (Z.rem mode 1000 - Z.rem mode 100) 100)%Z = negb (digit 2 mode =? 0)%Z.
Proof.
  intro H. rewrite !Z.rem_mod_nonneg by lia. unfold digit. change (10 ^ 0)%Z with 1%Z. change (10 ^ 1)%Z with 10%Z. change (10 ^ 2)%Z with 100%Z. rewrite Z.div_1_r.
  pose proof (Z.div_mod mode 10 ltac:(lia)). pose proof (Z.mod_pos_bound mode 10 ltac:(lia)).
  pose proof (Z.div_mod mode 100 ltac:(lia)). pose proof (Z.mod_pos_bound mode 100 ltac:(lia)).
  pose proof (Z.div_mod mode 1000 ltac:(lia)). pose proof (Z.mod_pos_bound mode 1000 ltac:(lia)).
  assert (D1 : (mode mod 100 - mode mod 10 = 10 * ((mode / 10) mod 10))%Z).
  { pose proof (Z.rem_mul_r mode 10 10 ltac:(lia) ltac:(lia)) as R. change (10 * 10)%Z with 100%Z in R. lia. }
  assert (D2 : (mode mod 1000 - mode mod 100 = 100 * ((mode / 100) mod 10))%Z).
  { pose proof (Z.rem_mul_r mode 100 10 ltac:(lia) ltac:(lia)) as R. change (100 * 10)%Z with 1000%Z in R. lia. }
  rewrite D1, D2. pose proof (Z.mod_pos_bound (mode / 10) 10 ltac:(lia)). pose proof (Z.mod_pos_bound (mode / 100) 10 ltac:(lia)).
  rewrite (Z.mul_comm 10), (Z.mul_comm 100), !Z.quot_mul by lia.
  split; [|split]; match goal with |- (0 <? ?a)%Z = negb (?b =? 0)%Z => destruct (Z.ltb_spec 0 a), (Z.eqb_spec b 0); try reflexivity; lia end.
Qed.

Lemma row_step F (c : bool) name i rest l : (c = true -> (length name <= 10)%nat /\ fits F i) ->
  (exists rows, cats rest = Some (concat (map (fun r => r ++ NL) rows)) /\ Forall2 (fun ni r => row_reads header r (fst ni) (snd ni)) (map snd (filter fst l)) rows) ->
  exists rows, cats ((if c then [bb_row F name i] else []) ++ rest) = Some (concat (map (fun r => r ++ NL) rows)) /\
    Forall2 (fun ni r => row_reads header r (fst ni) (snd ni)) (map snd (filter fst ((c, (name, i)) :: l))) rows.
Proof.
  intros HC (rows & E & R). destruct c; [|now exists rows]. destruct (HC eq_refl) as [HN HF]. destruct (row_ok F name i HN HF) as (row & E1 & R1).
  exists (row :: rows). split.
  - rewrite cats_app, E, cats_cons, E1. cbn [cat cats fold_right map concat]. now rewrite app_nil_r.
  - cbn [filter fst map snd]. constructor; [exact R1|exact R].
Qed.

(** If runs were made and a digit of BB_MODE asks for one with cuts there were: title, a header, and one row for each kind asked
    for (without cuts, with VPCs, with VPCs and Gomory cuts), in which the averages over the runs stand under their titles,
    provided they fit into 15 characters; otherwise nothing is printed. *)
Theorem table_rows : forall F runs mode solver no my all, runs <> 0%Z -> (0 <= mode)%Z -> (length solver <= 7)%nat ->
  (forall n i, In (n, i) (bb_rows mode solver no my all) -> fits F i) ->
  (bb_rows mode solver no my all = [] -> bb_report F runs mode solver no my all = Some []) /\
  (bb_rows mode solver no my all <> [] -> exists rows,
     bb_report F runs mode solver no my all = Some (NL ++ txt "## Branch-and-bound results ##" ++ NL ++ header ++ NL ++ concat (map (fun r => r ++ NL) rows)) /\
     Forall2 (fun ni r => row_reads header r (fst ni) (snd ni)) (bb_rows mode solver no my all) rows).
Proof.
  intros F runs mode solver no my all HR HM HS HF. unfold bb_report. apply Z.eqb_neq in HR. rewrite HR.
  destruct (digit_rem mode HM) as (-> & -> & ->). unfold bb_rows in *.
  set (c1 := negb (digit 0 mode =? 0)%Z) in *. set (c2 := negb (digit 1 mode =? 0)%Z && (0 <? sm_num_cuts my)%Z) in *.
  set (c3 := negb (digit 2 mode =? 0)%Z && (0 <? sm_num_cuts all)%Z) in *. split.
  - intro E. destruct c1, c2, c3; try discriminate E. reflexivity.
  - intro E. assert (CC : negb c1 && negb c2 && negb c3 = false) by (destruct c1, c2, c3; try reflexivity; exfalso; apply E; reflexivity). rewrite CC.
    assert (G : exists rows, cats ((if c1 then [bb_row F solver (sm_avg no)] else []) ++ (if c2 then [bb_row F (solver ++ txt "V") (sm_avg my)] else []) ++
        (if c3 then [bb_row F (solver ++ txt "V+G") (sm_avg all)] else []) ++ []) = Some (concat (map (fun r => r ++ NL) rows)) /\
        Forall2 (fun ni r => row_reads header r (fst ni) (snd ni)) (map snd (filter fst [(c1, (solver, sm_avg no)); (c2, (solver ++ txt "V", sm_avg my)); (c3, (solver ++ txt "V+G", sm_avg all))])) rows).
    { apply row_step; [intro K; split; [lia|apply (HF solver); rewrite K; now left]|].
      apply row_step; [intro K; split; [rewrite app_length; cbn [txt String.list_ascii_of_string length]; lia|apply (HF (solver ++ txt "V")); rewrite K; destruct c1; cbn; tauto]|].
      apply row_step; [intro K; split; [rewrite app_length; cbn [txt String.list_ascii_of_string length]; lia|apply (HF (solver ++ txt "V+G")); rewrite K; destruct c1, c2; cbn; tauto]|].
      exists []. split; [reflexivity|constructor]. }
    destruct G as (rows & G & R). exists rows. split; [|exact R]. rewrite app_nil_r in G.
    rewrite !app_assoc. rewrite <- (app_assoc _ _ (if c2 then _ else _)), <- (app_assoc _ _ (if c3 then _ else _)), <- (app_assoc (if c1 then _ else _)).
    rewrite cats_app, G. reflexivity.
Qed.
Print Assumptions table_rows.

Definition exi : bbinfo := Build_bbinfo 14 (27 # 2) 120 7 3 10 12 30 11 12 13.
Lemma exi_fits : fits exF exi.
Proof.
  split.
  - intros v H. assert (K : bb_known v /\ prints_f exF 2 v /\ (length (pf_f exF 2 v) <= 15)%nat).
    { cbn [nums_of exi bb_obj bb_bound bb_first_cut_pass bb_last_cut_pass bb_root_time bb_last_sol_time bb_time In] in H.
      repeat (destruct H as [<- | H]; [split; [vm_compute; discriminate|]; split; [|vm_compute; lia];
        match goal with |- prints_f exF _ ?v => exists v; split; [let t := eval vm_compute in (double_text v) in
          match t with ?a :: ?c :: _ :: ?fp => apply (exact_number _ [a; c] fp); [vm_compute; reflexivity|discriminate|discriminate|vm_compute; reflexivity|vm_compute; reflexivity] end
          |vm_compute; discriminate] end|]). destruct H. }
    destruct K as [K P]. split; [now left|intros _; exact P].
  - intros z H. cbn [ints_of exi bb_iters bb_nodes bb_root_passes In] in H. repeat (destruct H as [<- | H]; [vm_compute; lia|]). destruct H.
Qed.
(** Two rows are asked for (BB_MODE = 11) and printed. *)
Example table_case : let s := {| sm_num_cuts := 3; sm_first := bb_zero; sm_best := bb_zero; sm_avg := exi; sm_vec := [] |} in
  bb_rows 11 (txt "Cbc") s s s = [(txt "Cbc", exi); (txt "CbcV", exi)] /\
  bb_report exF 1 11 (txt "Cbc") s s s = Some (NL ++ txt "## Branch-and-bound results ##" ++ NL ++
    txt "          Obj            Bound          Iters          Nodes          Root passes    First cut pass Last cut pass  Root time      Last sol time  Time           " ++ NL ++
    txt "Cbc       14.000000      13.500000      120            7              3              10.000000      12.000000      11.000000      12.000000      13.000000      " ++ NL ++
    txt "CbcV      14.000000      13.500000      120            7              3              10.000000      12.000000      11.000000      12.000000      13.000000      " ++ NL).
Proof. split; vm_compute; reflexivity. Qed.

(** Refuted: the columns stay in place.  An average of 16 characters (an objective beyond 999999999999.99) pushes what follows to the right: the
    next column begins with its last digit. *)
Theorem wide_value_refuted : forall F name i d ds, (length name <= 10)%nat -> bb_known (bb_obj i) -> pf_f F 2 (bb_obj i) = ds ++ [d] -> length ds = 15%nat ->
  forall row, bb_row F name i = Some row -> exists t, column 1 row = d :: t.
Proof.
  intros F name i d ds HN K E L row H. unfold bb_row in H. cbn [map] in H. rewrite !cats_cons in H.
  assert (E1 : string_num (pf_f F) (bb_obj i) BB_INF 15 2 = Some (ds ++ [d])).
  { unfold string_num. assert (BD : - (BB_INF - EPS7) <= bb_obj i <= BB_INF - EPS7) by (apply Qabs_Qle_condition; exact K).
    pose proof EPS7_pos as EP. assert (B0 : EPS7 < BB_INF) by reflexivity.
    destruct (isInfinity (bb_obj i) BB_INF EPS7) eqn:I1; [apply isInfinity_iff_l in I1; [exfalso; lra|exact EP]|].
    destruct (isNegInfinity (bb_obj i) (- BB_INF) EPS7) eqn:I2; [apply isNegInfinity_iff_l in I2; [exfalso; lra|exact EP]|].
    cbn [Z.leb Z.compare andb]. change (Z.to_nat 2) with 2%nat. rewrite E. unfold pad. rewrite app_length, L. cbn [length]. change (Z.to_nat (Z.abs 15)) with 15%nat.
    cbn [Nat.sub Nat.add blanks repeat]. rewrite app_nil_r, snprintf_short by (rewrite app_length, L; cbn; lia). reflexivity. }
  rewrite E1 in H. cbn [put option_map] in H. rewrite (snprintf_short 300 (ds ++ [d])) in H by (rewrite app_length, L; cbn; lia).
  rewrite (snprintf_short 300 (pad 10 name)) in H by (rewrite pad_length; lia).
  match type of H with cat _ (cat _ ?R) = _ => destruct R as [r|]; [|discriminate H] end. cbn [cat] in H. injection H as <-.
  unfold column. change (10 + 15 * 1)%nat with 25%nat. rewrite <- app_assoc, (app_assoc (pad 10 name)). 
  rewrite skipn_app, skipn_all2 by (rewrite app_length, pad_length, L; lia). replace (25 - length (pad 10 name ++ ds))%nat with 0%nat by (rewrite app_length, pad_length, L; lia).
  cbn [app skipn firstn]. eexists. reflexivity.
Qed.
Print Assumptions wide_value_refuted.
