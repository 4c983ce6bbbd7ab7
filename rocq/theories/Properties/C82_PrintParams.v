(** C82: printing the parameters. *)
From Coq Require Import String Permutation Qpower Lqa.
From Verif Require Import Prelude Model.TextUtil Model.Tolerance Model.Parameters Model.Names Model.ParamPrint
  Spec.TextSpec Spec.NameSpec Spec.ParamSpec Spec.PrintSpec Proofs.ToleranceP Proofs.NamesP Proofs.ParamP.
From Verif Require Spec.ReportSpec Properties.C41_SetByName Properties.C78_Report.
#[local] Open Scope Q_scope.
#[local] Open Scope list_scope.

(** ** Powers of ten *)
Lemma power_Qpower e : ReportSpec.power e == Qpower (inject_Z 10) e.
Proof.
  unfold ReportSpec.power. destruct (Z.leb_spec 0 e) as [L|L].
  - rewrite Zpower_Qpower by exact L. reflexivity.
  - rewrite Zpower_Qpower by lia. rewrite <- Qpower_opp. now rewrite Z.opp_involutive.
Qed.
Lemma power_plus a b : ReportSpec.power (a + b) == ReportSpec.power a * ReportSpec.power b.
Proof. rewrite !power_Qpower. apply Qpower_plus. discriminate. Qed.
Lemma power_0 : ReportSpec.power 0 == 1. Proof. reflexivity. Qed.
Lemma power_gt0 e : 0 < ReportSpec.power e.
Proof. rewrite power_Qpower. apply Qpower_0_lt. reflexivity. Qed.
Lemma decade_up n : forall q, 1 <= q -> q < ReportSpec.power (Z.of_nat n) -> exists e, ReportSpec.power e <= q < ReportSpec.power (e + 1).
Proof.
  induction n as [|n IH]; intros q L H; [change (ReportSpec.power (Z.of_nat 0)) with 1 in H; lra|].
  destruct (Qlt_le_dec q (ReportSpec.power (Z.of_nat n))) as [A|A]; [now apply IH|].
  exists (Z.of_nat n). split; [exact A|]. rewrite Nat2Z.inj_succ in H. exact H.
Qed.
Lemma big_power q : exists n, q < ReportSpec.power (Z.of_nat n).
Proof.
  exists (Z.to_nat (Z.max 0 (Qfloor q + 1))). rewrite Z2Nat.id by lia. unfold ReportSpec.power.
  destruct (Z.leb_spec 0 (Z.max 0 (Qfloor q + 1))) as [_|L]; [|lia].
  apply Qlt_le_trans with (inject_Z (Z.max 0 (Qfloor q + 1))).
  - apply Qlt_le_trans with (inject_Z (Qfloor q + 1)); [apply Qlt_floor|]. rewrite <- Zle_Qle. lia.
  - rewrite <- Zle_Qle. apply Z.lt_le_incl, Z.pow_gt_lin_r; lia.
Qed.
Lemma decade q : 0 < q -> exists e, ReportSpec.power e <= q < ReportSpec.power (e + 1).
Proof.
  intro H. destruct (Qlt_le_dec q 1) as [A|A].
  - destruct (big_power (/ q)) as [n N]. set (p := ReportSpec.power (Z.of_nat n)) in *. assert (P : 0 < p) by apply power_gt0.
    assert (B : 1 <= q * p).
    { apply Qlt_le_weak. setoid_replace 1 with (q * / q) by (field; lra). rewrite !(Qmult_comm q). apply Qmult_lt_compat_r; assumption. }
    destruct (big_power (q * p)) as [m M]. destruct (decade_up m _ B M) as (e & E1 & E2). exists (e - Z.of_nat n)%Z.
    assert (S1 : ReportSpec.power e == ReportSpec.power (e - Z.of_nat n) * p) by (unfold p; rewrite <- power_plus; now rewrite Z.sub_add).
    assert (S2 : ReportSpec.power (e + 1) == ReportSpec.power (e - Z.of_nat n + 1) * p).
    { unfold p. rewrite <- power_plus. replace (e - Z.of_nat n + 1 + Z.of_nat n)%Z with (e + 1)%Z by lia. reflexivity. }
    rewrite S1 in E1. rewrite S2 in E2. split; [apply Qmult_le_r in E1; assumption|apply Qmult_lt_r in E2; assumption].
  - destruct (big_power q) as [n N]. exact (decade_up n q A N).
Qed.
Lemma prints_shows pe q : prints_e pe q -> shows_num q (pe q).
Proof.
  intros (_ & w & N & Z0 & H). exists w. split; [exact N|]. destruct (Qlt_le_dec 0 (Qabs q)) as [A|A].
  - destruct (decade _ A) as (e & E). destruct (H e E) as [_ D]. destruct E as [E _].
    assert (X : ReportSpec.power (e - 3) == ReportSpec.power e * (1 # 1000)) by (unfold Z.sub; rewrite power_plus; reflexivity).
    rewrite X in D. lra.
  - assert (Q0 : q == 0) by (pose proof (Qabs_nonneg q); qabs; lra). rewrite (Z0 Q0), Q0. vm_compute. discriminate.
Qed.

(** ** Digits with zeros in front *)
Lemma dec_value_cons c t : dec_value (c :: t) = ((Z.of_nat (nat_of_ascii c) - 48) * 10 ^ Z.of_nat (List.length t) + dec_value t)%Z.
Proof.
  reflexivity.
Qed.
Lemma dec_value_zeros n t : dec_value (repeat "0"%char n ++ t) = dec_value t.
Proof. induction n as [|n IH]; [reflexivity|]. cbn [repeat app]. rewrite dec_value_cons, IH. change (nat_of_ascii "0") with 48%nat. lia. Qed.
Lemma unsigned_zeros n t z : unsigned t z -> unsigned (repeat "0"%char n ++ t) z.
Proof.
  intros (N & F & ->). split; [intro E; apply app_eq_nil in E; now destruct E|]. split.
  - apply Forall_app. split; [|exact F]. rewrite Forall_forall. intros c H. apply repeat_spec in H. subst c. vm_compute. lia.
  - now rewrite dec_value_zeros.
Qed.
Lemma zero_padded_spec w z : signed (zero_padded w z) z.
Proof.
  unfold zero_padded. set (n := (_ - _ - _)%nat). destruct (Z.ltb_spec z 0) as [L|L]; cbn [app].
  - right. exists (repeat "0"%char n ++ digits (Z.abs z)), (Z.abs z). split; [reflexivity|]. split; [|lia]. apply unsigned_zeros, digits_spec. lia.
  - left. replace z with (Z.abs z) at 2 by lia. apply unsigned_zeros, digits_spec. lia.
Qed.
Lemma digits_length z n : (0 <= z < 10 ^ Z.of_nat n)%Z -> (1 <= n)%nat -> (List.length (digits z) <= n)%nat.
Proof. apply C78_Report.digits_fuel_length. Qed.
Lemma zero_padded_short z : is_int z -> (List.length (zero_padded 5 z) <= 16)%nat.
Proof.
  unfold is_int. intro H. unfold zero_padded. rewrite !app_length, repeat_length.
  assert (D : (List.length (digits (Z.abs z)) <= 10)%nat) by (apply digits_length; [change (10 ^ Z.of_nat 10)%Z with 10000000000%Z; lia|lia]).
  destruct (z <? 0)%Z; cbn [List.length]; lia.
Qed.
Lemma dec_value_bound t : Forall (fun c => (48 <= nat_of_ascii c <= 57)%nat) t -> (0 <= dec_value t < 10 ^ Z.of_nat (List.length t))%Z.
Proof.
  induction 1 as [|c t C F IH]; [vm_compute; split; [discriminate|reflexivity]|]. rewrite dec_value_cons. cbn [List.length]. rewrite Nat2Z.inj_succ, Z.pow_succ_r by lia.
  set (p := (10 ^ Z.of_nat (List.length t))%Z) in *. nia.
Qed.
Lemma digits_sorted a : forall b, List.length a = List.length b -> Forall (fun c => (48 <= nat_of_ascii c <= 57)%nat) a -> Forall (fun c => (48 <= nat_of_ascii c <= 57)%nat) b ->
  (dec_value a < dec_value b)%Z -> text_lt a b.
Proof.
  induction a as [|x a IH]; intros [|y b] L FA FB H; try discriminate L; [vm_compute in H; discriminate|]. cbn [text_lt].
  inversion_clear FA as [|? ? X FA']. inversion_clear FB as [|? ? Y FB']. rewrite !dec_value_cons in H. injection L as L. rewrite L in H.
  pose proof (dec_value_bound a FA') as BA. pose proof (dec_value_bound b FB') as BB. rewrite L in BA. set (p := (10 ^ Z.of_nat (List.length b))%Z) in *.
  destruct (Nat.lt_trichotomy (nat_of_ascii x) (nat_of_ascii y)) as [T|[T|T]]; [now left| |nia].
  right. assert (E : x = y) by (rewrite <- (ascii_nat_embedding x), T; apply ascii_nat_embedding). split; [exact E|]. apply IH; [exact L|exact FA'|exact FB'|]. subst y. lia.
Qed.

(** ** Values *)
Lemma int_shown padded z : is_int z -> shows_int z (int_value padded z).
Proof.
  intro I. unfold int_value. rewrite zd_inf, zd_ninf. unfold Parameters.INT_MAX. change (2 ^ 31 - 1)%Z with 2147483647%Z. change (- (2147483647))%Z with (-2147483647)%Z.
  unfold shows_int. destruct (Z.leb_spec 2147483647 z) as [A|A]; [split; [intro; lia|]; split; intro; [reflexivity|lia]|].
  destruct (Z.leb_spec z (-2147483647)) as [B|B]; [split; [intro; lia|]; split; intro; [lia|reflexivity]|].
  split; [intros _|split; intro; lia]. unfold into500. destruct padded.
  - rewrite firstn_all2 by (pose proof (zero_padded_short z I); lia). apply zero_padded_spec.
  - rewrite firstn_all2; [apply int_text_spec|]. pose proof (C78_Report.int_length z) as L. unfold in_int, Names.INT_MIN, Names.INT_MAX in L. change (2 ^ 31)%Z with 2147483648%Z in L. unfold is_int in I. specialize (L ltac:(lia)). lia.
Qed.
Lemma num_value pe q : Qabs q <= DBL_MAXv - EPS7 -> prints_e pe q -> double_value pe (DFin q) = pe q.
Proof.
  intros A (L & _). unfold double_value, d_isInfinity, d_isNegInfinity, d_lessThanVal, d_greaterThanVal, dbl_max, dbl_lowest, d_sub, d_add, d_le.
  pose proof EPS7_pos as EP.
  assert (A1 : q <= DBL_MAXv - EPS7) by (qabs; lra). assert (A2 : - (DBL_MAXv - EPS7) <= q) by (qabs; lra).
  replace (Qle_bool DBL_MAXv q) with false by (symmetry; apply Qle_bool_gt; lra).
  replace (Qle_bool q (DBL_MAXv - EPS7)) with true by (symmetry; now apply Qle_bool_iff).
  replace (Qle_bool q (- DBL_MAXv)) with false by (symmetry; apply Qle_bool_gt; lra).
  replace (Qle_bool (- DBL_MAXv + EPS7) q) with true by (symmetry; apply Qle_bool_iff; lra). cbn [orb negb].
  unfold into500. apply firstn_all2. lia.
Qed.

Lemma num_inf pe q : DBL_MAXv - EPS7 < q -> double_value pe (DFin q) = txt "'inf'".
Proof.
  intro A. unfold double_value, d_isInfinity, d_lessThanVal, dbl_max, d_sub, d_le.
  replace (Qle_bool q (DBL_MAXv - EPS7)) with false by (symmetry; now apply Qle_bool_gt). rewrite orb_true_r. reflexivity.
Qed.
Lemma max_big : EPS7 < DBL_MAXv. Proof. reflexivity. Qed.
Lemma num_ninf pe q : q < - (DBL_MAXv - EPS7) -> double_value pe (DFin q) = txt "'-inf'".
Proof.
  intro A. unfold double_value, d_isInfinity, d_isNegInfinity, d_lessThanVal, d_greaterThanVal, dbl_max, dbl_lowest, d_sub, d_add, d_le. pose proof max_big as MB. pose proof EPS7_pos as EP.
  replace (Qle_bool DBL_MAXv q) with false by (symmetry; apply Qle_bool_gt; lra).
  replace (Qle_bool q (DBL_MAXv - EPS7)) with true by (symmetry; apply Qle_bool_iff; lra). cbn [orb negb].
  replace (Qle_bool (- DBL_MAXv + EPS7) q) with false by (symmetry; apply Qle_bool_gt; lra). rewrite orb_true_r. reflexivity.
Qed.
(** The three cases. *)
Lemma num_cases q : Qabs q <= DBL_MAXv - EPS7 \/ DBL_MAXv - EPS7 < q \/ q < - (DBL_MAXv - EPS7).
Proof. destruct (Qlt_le_dec (DBL_MAXv - EPS7) q) as [A|A]; [now right; left|]. destruct (Qlt_le_dec q (- (DBL_MAXv - EPS7))) as [B|B]; [now right; right|]. left. qabs; lra. Qed.
Lemma double_shown pe d : (forall q, d = DFin q -> Qabs q <= DBL_MAXv - EPS7 -> prints_e pe q) -> shows_double d (double_value pe d).
Proof.
  intro H. destruct d as [q|[|]|]; cbn [shows_double]; try reflexivity. pose proof EPS7_pos as EP. pose proof max_big as MB.
  destruct (num_cases q) as [A|[A|A]].
  - split; [|split; intro B; exfalso; qabs; lra]. intros _. pose proof (H q eq_refl A) as P. rewrite (num_value pe q A P). now apply prints_shows.
  - split; [intro B; exfalso; qabs; lra|]. split; intro B; [now apply num_inf|exfalso; lra].
  - split; [intro B; exfalso; qabs; lra|]. split; intro B; [exfalso; lra|now apply num_ninf].
Qed.

(** No separators inside. *)
Definition plain_char (c : ascii) : Prop := ~ digitp c /\ ~ In c (txt " -+.e'inf").
Lemma number_plain c t v : plain_char c -> ReportSpec.number t v -> ~ In c t.
Proof.
  intros [D N] (sg & man & ex & m & e & -> & M & E & S) H.
  assert (U : forall u z, unsigned u z -> ~ In c u) by (intros u z Uz; exact (unsigned_no_char c u z Uz D)).
  assert (K : forall x, In x (txt " -+.e'inf") -> c <> x) by (intros x X ->; now apply N).
  apply in_app_or in H. destruct H as [H|H].
  - destruct S as [[[-> | ->] _] | [-> _]]; [exact H| |]; destruct H as [H|[]]; symmetry in H; revert H; apply K; cbn; tauto.
  - apply in_app_or in H. destruct H as [H|H].
    + destruct M as [(z & U1 & _) | (ip & fp & i & f & -> & U1 & U2 & _)]; [exact (U _ _ U1 H)|].
      apply in_app_or in H. destruct H as [H|[H|H]]; [exact (U _ _ U1 H)| |exact (U _ _ U2 H)]. symmetry in H; revert H; apply K; cbn; tauto.
    + destruct E as [[-> _] | [(u & -> & U1) | (u & w & -> & U1 & _)]]; [exact H| |];
        (apply in_app_or in H; destruct H as [H|H]; [|exact (U _ _ U1 H)]; destruct H as [H|[H|[]]]; symmetry in H; revert H; apply K; cbn; tauto).
Qed.
Lemma inf_plain c : plain_char c -> ~ In c (txt "'inf'") /\ ~ In c (txt "'-inf'").
Proof. intros [_ N]. split; intro H; apply N; cbn in *; tauto. Qed.
Lemma int_plain c padded z : plain_char c -> is_int z -> ~ In c (int_value padded z).
Proof.
  intros C I. pose proof (int_shown padded z I) as (A & B & D). destruct (inf_plain c C) as [I1 I2].
  destruct (Z.lt_ge_cases (Z.abs z) 2147483647) as [L|L].
  - destruct C as [C1 C2]. apply (signed_no_char c _ z (A L) C1). intros ->. apply C2. cbn. tauto.
  - destruct (Z.le_gt_cases 0 z); [rewrite B by lia; exact I1|rewrite D by lia; exact I2].
Qed.
Lemma double_plain pe c d : plain_char c -> (forall q, d = DFin q -> Qabs q <= DBL_MAXv - EPS7 -> prints_e pe q) -> ~ In c (double_value pe d).
Proof.
  intros C H. destruct (inf_plain c C) as [I1 I2]. destruct d as [q|[|]|]; [|exact I2|exact I1|exact I1].
  destruct (num_cases q) as [A|[A|A]]; [|rewrite num_inf by exact A; exact I1|rewrite num_ninf by exact A; exact I2].
  pose proof (H q eq_refl A) as P. rewrite (num_value pe q A P). destruct (prints_shows pe q P) as (w & N & _). exact (number_plain c _ w C N).
Qed.
Lemma int_value_ne padded z : is_int z -> int_value padded z <> [].
Proof.
  intros I E. pose proof (int_shown padded z I) as (A & B & D). rewrite E in *.
  destruct (Z.lt_ge_cases (Z.abs z) 2147483647) as [L|L].
  - destruct (A L) as [(N & _)|(u & w & X & _)]; [now apply N|discriminate X].
  - destruct (Z.le_gt_cases 0 z); [specialize (B ltac:(lia)); discriminate B|specialize (D ltac:(lia)); discriminate D].
Qed.
Lemma number_ne t v : ReportSpec.number t v -> t <> [].
Proof.
  intros (sg & man & ex & m & e & -> & M & _) E. apply app_eq_nil in E. destruct E as [_ E]. apply app_eq_nil in E. destruct E as [-> _].
  destruct M as [(z & (N & _) & _) | (ip & fp & i & f & X & _)]; [now apply N|]. now destruct ip.
Qed.
Lemma double_value_ne pe d : (forall q, d = DFin q -> Qabs q <= DBL_MAXv - EPS7 -> prints_e pe q) -> double_value pe d <> [].
Proof.
  intro H. destruct d as [q|[|]|]; [|discriminate..].
  destruct (num_cases q) as [A|[A|A]]; [|rewrite num_inf by exact A; discriminate|rewrite num_ninf by exact A; discriminate].
  pose proof (H q eq_refl A) as P. rewrite (num_value pe q A P). destruct (prints_shows pe q P) as (w & N & _). exact (number_ne _ w N).
Qed.

(** ** The items *)
Definition fits (i : item) (nv : text * text) : Prop := lowerCaseString (fst nv) = fst i /\ snd i (snd nv).
Lemma Forall2_map_both {A B C} (R : B -> C -> Prop) (f : A -> B) (g : A -> C) l : (forall a, In a l -> R (f a) (g a)) -> Forall2 R (map f l) (map g l).
Proof. induction l as [|a l IH]; intro H; cbn [map]; constructor; [apply H; now left|apply IH; intros b Hb; apply H; now right]. Qed.
Lemma int_entry P k : wfP P -> exists p, lookup int_eqb (ints P) k = Some p /\ lowerCaseString (ip_name p) = int_name k /\ is_int (ip_val p).
Proof.
  intro W. destruct (wf_int P k W) as (p & L & S). exists p. split; [exact L|]. destruct W as (_ & _ & _ & W & _). split; [|apply (W k p L)].
  assert (N : option_map (fun x => fst (fst (fst x))) (option_map ish (lookup int_eqb intTable k)) = Some (ip_name p)) by (rewrite S; reflexivity).
  revert N. generalize (ip_name p) as nm. intros nm N. clear - N. destruct k; vm_compute in N; injection N as <-; vm_compute; reflexivity.
Qed.
Lemma double_entry P k : wfP P -> exists p, lookup double_eqb (doubles P) k = Some p /\ lowerCaseString (dp_name p) = double_name k.
Proof.
  intro W. destruct (wf_double P k W) as (p & L & S). exists p. split; [exact L|].
  assert (N : option_map (fun x => fst (fst x)) (option_map dsh (lookup double_eqb doubleTable k)) = Some (dp_name p)) by (rewrite S; reflexivity).
  revert N. generalize (dp_name p) as nm. intros nm N. clear - N. destruct k; vm_compute in N; injection N as <-; vm_compute; reflexivity.
Qed.
Lemma string_entry P k : wfP P -> exists p, lookup string_eqb (strings P) k = Some p /\ lowerCaseString (sp_name p) = string_name k.
Proof.
  intro W. destruct (wf_string P k W) as (p & L & S). exists p. split; [exact L|].
  assert (N : option_map ssh (lookup string_eqb stringTable k) = Some (sp_name p)) by exact S. clear S.
  revert N. generalize (sp_name p) as nm. intros nm N. clear - N. destruct k; vm_compute in N; injection N as <-; vm_compute; reflexivity.
Qed.
Section Items.
Variables (pe : Q -> text) (O : orders) (P : params).
Hypothesis (W : wfP P) (L : library_ok pe P).
Definition dflt : text * text := ([], []).
Definition int_nv (k : intParam) : text * text :=
  match lookup int_eqb (ints P) k with Some p => (ip_name p, int_value (int_eqb k DISJ_TERMS) (ip_val p)) | None => dflt end.
Definition double_nv (k : doubleParam) : text * text :=
  match lookup double_eqb (doubles P) k with Some p => (dp_name p, double_value pe (dp_val p)) | None => dflt end.
Definition string_nv (k : stringParam) : text * text :=
  match lookup string_eqb (strings P) k with Some p => (sp_name p, sp_val p) | None => dflt end.
Lemma int_items_map : int_items O P = map int_nv (o_int O).
Proof using W.
  unfold int_items. induction (o_int O) as [|k l IH]; [reflexivity|]. cbn [flat_map map]. rewrite IH. unfold int_nv at 2. destruct (int_entry P k W) as (p & E & _). rewrite E. reflexivity.
Qed.
Lemma double_items_map : double_items pe O P = map double_nv (o_double O).
Proof using W.
  unfold double_items. induction (o_double O) as [|k l IH]; [reflexivity|]. cbn [flat_map map]. rewrite IH. unfold double_nv at 2. destruct (double_entry P k W) as (p & E & _). rewrite E. reflexivity.
Qed.
Lemma string_items_map : string_items O P = map string_nv (o_string O).
Proof using W.
  unfold string_items. induction (o_string O) as [|k l IH]; [reflexivity|]. cbn [flat_map map]. rewrite IH. unfold string_nv at 2. destruct (string_entry P k W) as (p & E & _). rewrite E. reflexivity.
Qed.
Lemma double_lib k p : lookup double_eqb (doubles P) k = Some p -> forall q, dp_val p = DFin q -> Qabs q <= DBL_MAXv - EPS7 -> prints_e pe q.
Proof using L. intros E q V A. destruct L as [L1 _]. apply (L1 k q); [|exact A]. unfold get_double. rewrite E, V. reflexivity. Qed.
Lemma numeric_fit : Forall2 fits (numeric_of O P) (int_items O P ++ double_items pe O P).
Proof using W L.
  rewrite int_items_map, double_items_map. unfold numeric_of. apply Forall2_app; apply Forall2_map_both; intros k _; unfold fits; cbn [fst snd].
  - unfold int_nv. destruct (int_entry P k W) as (p & E & N & I). rewrite E. cbn [fst snd]. split; [exact N|]. intros v V. unfold get_int in V. rewrite E in V. injection V as <-. now apply int_shown.
  - unfold double_nv. destruct (double_entry P k W) as (p & E & N). rewrite E. cbn [fst snd]. split; [exact N|]. intros v V. unfold get_double in V. rewrite E in V. injection V as <-.
    apply double_shown, (double_lib k p E).
Qed.
Lemma strings_fit : Forall2 fits (strings_of O P) (string_items O P).
Proof using W.
  rewrite string_items_map. unfold strings_of. apply Forall2_map_both; intros k _; unfold fits; cbn [fst snd].
  unfold string_nv, get_string. destruct (string_entry P k W) as (p & E & N). rewrite E. cbn [fst snd]. split; [exact N|reflexivity].
Qed.
Lemma consts_fit : complete O -> Forall2 fits (constants_of O) (const_items pe O).
Proof using L.
  intros (_ & _ & _ & C1 & C2). unfold constants_of, const_items. apply Forall2_app; apply Forall2_map_both; intros c Hc; unfold fits; cbn [fst snd]; (split; [reflexivity|]).
  - apply int_shown. apply (Permutation_in _ C1) in Hc. revert c Hc. apply Forall_forall. unfold intConsts, is_int, Parameters.INT_MAX. repeat (constructor; [cbn [snd]; vm_compute; split; discriminate|]). constructor.
  - apply (Permutation_in _ C2) in Hc. destruct L as [_ L2]. pose proof (L2 c Hc) as Pc. assert (A : Qabs (snd c) <= DBL_MAXv - EPS7).
    { clear Pc. revert c Hc. apply Forall_forall. unfold doubleConsts. repeat (constructor; [cbn [snd]; vm_compute; discriminate|]). constructor. }
    rewrite num_value by assumption. now apply prints_shows.
Qed.
Lemma numeric_plain c nv : plain_char c -> In nv (int_items O P ++ double_items pe O P) -> ~ In c (snd nv) /\ snd nv <> [].
Proof using W L.
  intros C H. rewrite int_items_map, double_items_map in H. apply in_app_or in H. destruct H as [H|H]; apply in_map_iff in H; destruct H as (k & <- & _).
  - unfold int_nv. destruct (int_entry P k W) as (p & E & N & I). rewrite E. cbn [snd]. split; [now apply int_plain|now apply int_value_ne].
  - unfold double_nv. destruct (double_entry P k W) as (p & E & N). rewrite E. cbn [snd]. split; [apply double_plain; [exact C|exact (double_lib k p E)]|apply double_value_ne; exact (double_lib k p E)].
Qed.
Lemma consts_plain c nv : plain_char c -> complete O -> In nv (const_items pe O) -> ~ In c (snd nv).
Proof using L.
  intros C (_ & _ & _ & C1 & C2) H. unfold const_items in H. apply in_app_or in H. destruct H as [H|H]; apply in_map_iff in H; destruct H as (k & <- & Hc); cbn [snd].
  - apply int_plain; [exact C|]. apply (Permutation_in _ C1) in Hc. revert k Hc. apply Forall_forall. unfold intConsts, is_int, Parameters.INT_MAX. repeat (constructor; [cbn [snd]; vm_compute; split; discriminate|]). constructor.
  - apply double_plain; [exact C|]. intros q E _. injection E as <-. apply (Permutation_in _ C2) in Hc. destruct L as [_ L2]. exact (L2 k Hc).
Qed.
End Items.

(** ** The text *)
Definition followed (sep : ascii) (ts : list text) : text := concat (map (fun t => t ++ [sep]) ts).
Definition amount_of (s : PrintSpec.shape) : Z := match s with Both => 0 | Names => 1 | Values => 2 end.
Lemma followed_app sep a b : followed sep (a ++ b) = followed sep a ++ followed sep b.
Proof. unfold followed. now rewrite map_app, concat_app. Qed.
Lemma block_text sep a l : concat (map (fun nv => to_string a (fst nv) (snd nv) ++ [sep]) l) = followed sep (map (fun nv => to_string a (fst nv) (snd nv)) l).
Proof. unfold followed. now rewrite map_map. Qed.
Lemma block_matches s items l : Forall2 fits items l -> Forall2 (matches s) items (map (fun nv => to_string (amount_of s) (fst nv) (snd nv)) l).
Proof.
  induction 1 as [|i [n v] items l [N V] F IH]; cbn [map]; [constructor|]. constructor; [|exact IH]. cbn [fst snd] in *.
  destruct s; cbn [amount_of matches]; unfold to_string; cbn [Z.eqb Pos.eqb]; [|exact N|exact V]. exists v. split; [now rewrite N|exact V].
Qed.

(** What is printed, as one block. *)
Definition what_items (pe : Q -> text) (O : orders) (P : params) (what : Z) : list (text * text) :=
  (if one_of what [0; 1; 2; 6; 7; 8]%Z then int_items O P ++ double_items pe O P else []) ++
  (if one_of what [3; 4; 5; 6; 7; 8]%Z then string_items O P else []) ++
  (if one_of what [9; 10; 11]%Z then const_items pe O else []).
Lemma print_block pe O P what : printParams pe O true P what =
  followed (if one_of what [0; 3; 6; 10]%Z then nl else comma) (map (fun nv => to_string (Z.rem what 3) (fst nv) (snd nv)) (what_items pe O P what)).
Proof.
  unfold printParams, what_items. cbn [negb]. rewrite !block_text, !map_app, !followed_app. unfold nl, comma.
  destruct (one_of what [0; 1; 2; 6; 7; 8]%Z), (one_of what [3; 4; 5; 6; 7; 8]%Z), (one_of what [9; 10; 11]%Z); cbn [map app]; rewrite ?map_app, ?followed_app; reflexivity.
Qed.

(** Twelve kinds of output.  Everything is printed with its name and value, one after the other, each followed by the separator;
    with the documented separator except for kinds 9 and 10. *)
Theorem printed : forall st pe O P what items s sep, reach st P -> complete O -> library_ok pe P ->
  documented what O P = Some (items, s, sep) -> what <> 9%Z -> what <> 10%Z ->
  exists ts, printParams pe O true P what = concat (map (fun t => t ++ [sep]) ts) /\ Forall2 (matches s) items ts.
Proof.
  intros st pe O P what items s sep R C L D N9 N10. apply reach_wf in R.
  pose proof (numeric_fit pe O P R L) as F1. pose proof (strings_fit O P R) as F2. pose proof (consts_fit pe O P L C) as F3.
  assert (F4 := Forall2_app F1 F2).
  assert (K : forall w a l, Forall2 fits items l -> what_items pe O P what = l -> Z.rem what 3 = amount_of s -> (if one_of what [0; 3; 6; 10]%Z then nl else comma) = sep -> w = what -> a = s ->
    exists ts, printParams pe O true P what = concat (map (fun t => t ++ [sep]) ts) /\ Forall2 (matches s) items ts).
  { intros _ _ l F WI A S _ _. exists (map (fun nv => to_string (amount_of s) (fst nv) (snd nv)) l). split; [rewrite print_block, WI, A, S; reflexivity|]. now apply block_matches. }
  unfold documented in D. destruct what as [|p|p]; [|repeat (destruct p as [p|p|]; try discriminate D; try congruence)|discriminate D];
    injection D as <- <- <-;
    (eapply K; [|unfold what_items; cbn [one_of existsb Z.eqb Pos.eqb orb app]; rewrite ?app_nil_r; reflexivity|reflexivity|reflexivity|reflexivity|reflexivity]);
    rewrite ?app_assoc; assumption.
Qed.
Print Assumptions printed.

(** No file, or another number: nothing. *)
Theorem prints_nothing : forall pe O P what,
  printParams pe O false P what = [] /\ ((what < 0 \/ 11 < what)%Z -> printParams pe O true P what = []).
Proof.
  intros pe O P what. split; [reflexivity|]. intro H. rewrite print_block. unfold what_items.
  assert (K : forall l, Forall (fun z => (0 <= z <= 11)%Z) l -> one_of what l = false).
  { intros l F. unfold one_of. apply not_true_is_false. intro E. apply existsb_exists in E. destruct E as (x & X & E). apply Z.eqb_eq in E. rewrite Forall_forall in F. specialize (F x X). lia. }
  rewrite !K by (repeat (constructor; [lia|]); constructor). reflexivity.
Qed.
Print Assumptions prints_nothing.

(** ** Fields *)
Lemma split_nonempty c t : split_on c t <> [].
Proof. destruct t as [|a t]; cbn [split_on]; [discriminate|]. destruct (Ascii.eqb a c); [discriminate|]. destruct (split_on c t); discriminate. Qed.
Lemma split_front c t r : ~ In c t -> split_on c (t ++ c :: r) = t :: split_on c r.
Proof.
  induction t as [|a t IH]; intro N; cbn [app split_on]; [now rewrite Ascii.eqb_refl|].
  destruct (Ascii.eqb_spec a c) as [-> | E]; [exfalso; apply N; now left|]. rewrite IH by (intro H; apply N; now right). reflexivity.
Qed.
Lemma split_followed c ts : Forall (fun t => ~ In c t) ts -> split_on c (followed c ts) = ts ++ [[]].
Proof.
  induction 1 as [|t ts N F IH]; [reflexivity|]. unfold followed. cbn [map concat]. rewrite <- app_assoc. cbn [app]. rewrite split_front by exact N. fold (followed c ts). now rewrite IH.
Qed.
Fixpoint occ (c : ascii) (t : text) : nat := match t with [] => 0 | a :: r => (if Ascii.eqb a c then 1 else 0) + occ c r end.
Lemma occ_app c a b : occ c (a ++ b) = (occ c a + occ c b)%nat.
Proof. induction a as [|x a IH]; cbn [app occ]; [reflexivity|]. rewrite IH. lia. Qed.
Lemma occ_in c t : In c t -> (1 <= occ c t)%nat.
Proof. induction t as [|a t IH]; intros []; cbn [occ]; [subst a; rewrite Ascii.eqb_refl; lia|]. specialize (IH H). lia. Qed.
Lemma split_length c t : List.length (split_on c t) = Datatypes.S (occ c t).
Proof.
  induction t as [|a t IH]; cbn [split_on occ]; [reflexivity|]. destruct (Ascii.eqb a c); cbn [List.length]; [rewrite IH; lia|].
  destruct (split_on c t) eqn:E; [exfalso; now apply (split_nonempty c t)|]. cbn [List.length] in *. lia.
Qed.
Lemma occ_followed c ts : occ c (followed c ts) = (List.length ts + list_sum (map (occ c) ts))%nat.
Proof.
  induction ts as [|t ts IH]; [reflexivity|]. unfold followed. cbn [map concat]. rewrite !occ_app. cbn [occ]. rewrite Ascii.eqb_refl. fold (followed c ts). rewrite IH. unfold list_sum. cbn [fold_right List.length]. lia.
Qed.
Lemma comma_plain : plain_char comma.
Proof. split; [unfold digitp; vm_compute; lia|]. vm_compute. intuition discriminate. Qed.
Lemma nl_plain : plain_char nl.
Proof. split; [unfold digitp; vm_compute; lia|]. vm_compute. intuition discriminate. Qed.
Lemma name_chars c : c = comma \/ c = nl -> (forall k, ~ In c (int_name k)) /\ (forall k, ~ In c (double_name k)) /\ (forall k, ~ In c (string_name k)).
Proof. intros [-> | ->]; (split; [|split]); intros []; vm_compute; intuition discriminate. Qed.
Lemma names_of_items O P i : In i (numeric_of O P ++ strings_of O P) -> ~ In comma (fst i) /\ ~ In nl (fst i) /\ fst i <> [].
Proof.
  assert (K1 : forall k, ~ In comma (int_name k) /\ ~ In nl (int_name k) /\ int_name k <> []) by (intro k; split; [now apply name_chars; left|]; split; [apply name_chars; now right|destruct k; discriminate]).
  assert (K2 : forall k, ~ In comma (double_name k) /\ ~ In nl (double_name k) /\ double_name k <> []) by (intro k; split; [now apply name_chars; left|]; split; [apply name_chars; now right|destruct k; discriminate]).
  assert (K3 : forall k, ~ In comma (string_name k) /\ ~ In nl (string_name k) /\ string_name k <> []) by (intro k; split; [now apply name_chars; left|]; split; [apply name_chars; now right|destruct k; discriminate]).
  unfold numeric_of, strings_of. intro H. apply in_app_or in H. destruct H as [H|H]; [apply in_app_or in H; destruct H as [H|H]|]; apply in_map_iff in H; destruct H as (k & <- & _); cbn [fst]; auto.
Qed.
Lemma Forall2_in_r {A B} (R : A -> B -> Prop) l m b : Forall2 R l m -> In b m -> exists a, In a l /\ R a b.
Proof. induction 1 as [|x y l m H F IH]; intros []; [subst y; exists x; split; [now left|exact H]|]. destruct (IH H0) as (a & A1 & A2). exists a. split; [now right|exact A2]. Qed.
Lemma Forall2_len {A B} (R : A -> B -> Prop) l m : Forall2 R l m -> List.length l = List.length m.
Proof. induction 1; cbn [List.length]; congruence. Qed.
Lemma all_fit pe O P : wfP P -> library_ok pe P -> Forall2 fits (numeric_of O P ++ strings_of O P) (what_items pe O P 6).
Proof.
  intros W L. unfold what_items. cbn [one_of existsb Z.eqb Pos.eqb orb app]. rewrite app_nil_r. apply Forall2_app; [now apply numeric_fit|now apply strings_fit].
Qed.
Lemma all_values pe O P c nv : wfP P -> library_ok pe P -> plain_char c -> In nv (what_items pe O P 6) -> (~ In c (snd nv) /\ snd nv <> []) \/ exists k, In k (o_string O) /\ get_string P k = Done (snd nv).
Proof.
  intros W L C H. unfold what_items in H. cbn [one_of existsb Z.eqb Pos.eqb orb app] in H. rewrite app_nil_r in H. apply in_app_or in H. destruct H as [H|H].
  - left. exact (numeric_plain pe O P W L c nv C H).
  - right. rewrite string_items_map in H by exact W. apply in_map_iff in H. destruct H as (k & <- & K). exists k. split; [exact K|].
    unfold string_nv, get_string. destruct (string_entry P k W) as (p & E & _). rewrite E. reflexivity.
Qed.
Lemma print7 pe O P : printParams pe O true P 7 = followed comma (map (fun nv => lowerCaseString (fst nv)) (what_items pe O P 6)).
Proof. rewrite print_block. reflexivity. Qed.
Lemma print8 pe O P : printParams pe O true P 8 = followed comma (map snd (what_items pe O P 6)).
Proof. rewrite print_block. reflexivity. Qed.
Lemma print6 pe O P : printParams pe O true P 6 = followed nl (map (fun nv => lowerCaseString (fst nv) ++ comma :: snd nv) (what_items pe O P 6)).
Proof. rewrite print_block. reflexivity. Qed.
Lemma map_fits {B} (R : item -> B -> Prop) (f : text * text -> B) items l : Forall2 fits items l -> (forall i nv, fits i nv -> R i (f nv)) -> Forall2 R items (map f l).
Proof. intros F H. induction F; cbn [map]; constructor; auto. Qed.

(** The header line (kind 7) and the line of values (kind 8), as a table of comma-separated values: column by column the name and the
    value of the same parameter, if no string has a comma in it. *)
Theorem header_matches_row : forall st pe O P, reach st P -> complete O -> library_ok pe P -> (forall k v, get_string P k = Done v -> ~ In comma v) ->
  exists names values, split_on comma (printParams pe O true P 7) = names ++ [[]] /\ split_on comma (printParams pe O true P 8) = values ++ [[]] /\
    Forall2 (fun i n => n = fst i) (numeric_of O P ++ strings_of O P) names /\ Forall2 (fun i v => snd i v) (numeric_of O P ++ strings_of O P) values.
Proof.
  intros st pe O P R C L NS. apply reach_wf in R. pose proof (all_fit pe O P R L) as F.
  exists (map (fun nv => lowerCaseString (fst nv)) (what_items pe O P 6)), (map snd (what_items pe O P 6)). split; [|split; [|split]].
  - rewrite print7. apply split_followed. rewrite Forall_forall. intros t H. apply in_map_iff in H. destruct H as (nv & <- & H).
    destruct (Forall2_in_r _ _ _ _ F H) as (i & I & N & _). rewrite N. apply (names_of_items O P i I).
  - rewrite print8. apply split_followed. rewrite Forall_forall. intros t H. apply in_map_iff in H. destruct H as (nv & <- & H).
    destruct (all_values pe O P comma nv R L comma_plain H) as [[A _]|(k & _ & K)]; [exact A|exact (NS k _ K)].
  - apply (map_fits (fun i n => n = fst i) _ _ _ F). intros i nv [N _]. exact N.
  - apply (map_fits (fun i v => snd i v) _ _ _ F). intros i nv [_ V]. exact V.
Qed.
Print Assumptions header_matches_row.

(** With a comma in a string (DISJ_OPTIONS, or a file name) the line of values has more fields than the header. *)
Theorem comma_refuted : forall st pe O P k v, reach st P -> complete O -> library_ok pe P -> get_string P k = Done v -> In comma v ->
  (List.length (split_on comma (printParams pe O true P 7)) < List.length (split_on comma (printParams pe O true P 8)))%nat.
Proof.
  intros st pe O P k v R C L G H. apply reach_wf in R. pose proof (all_fit pe O P R L) as F. rewrite !split_length, print7, print8, !occ_followed, !map_length.
  assert (Z7 : forall l, (forall t, In t l -> ~ In comma t) -> list_sum (map (occ comma) l) = 0%nat).
  { induction l as [|t l IH]; intro N; [reflexivity|]. unfold list_sum. cbn [map fold_right]. fold (list_sum (map (occ comma) l)). rewrite IH by (intros; apply N; now right).
    assert (X : occ comma t = 0%nat); [|lia]. specialize (N t (or_introl eq_refl)). clear - N. induction t as [|a t IH]; [reflexivity|]. cbn [occ].
    destruct (Ascii.eqb_spec a comma) as [-> | E]; [exfalso; apply N; now left|]. rewrite IH by (intro; apply N; now right). reflexivity. }
  rewrite (Z7 (map (fun nv => lowerCaseString (fst nv)) (what_items pe O P 6))).
  2:{ intros t T. apply in_map_iff in T. destruct T as (nv & <- & T). destruct (Forall2_in_r _ _ _ _ F T) as (i & I & N & _). rewrite N. apply (names_of_items O P i I). }
  assert (I : In v (map snd (what_items pe O P 6))).
  { unfold what_items. cbn [one_of existsb Z.eqb Pos.eqb orb app]. rewrite app_nil_r, map_app. apply in_or_app. right. rewrite string_items_map by exact R. rewrite map_map.
    apply in_map_iff. exists k. split.
    - unfold string_nv, get_string in *. destruct (string_entry P k R) as (p & E & _). rewrite E in *. now injection G.
    - destruct C as (_ & _ & C & _). apply (Permutation_in _ (Permutation_sym C)). unfold all_string. destruct k; cbn; tauto. }
  assert (S : forall l, In v l -> (1 <= list_sum (map (occ comma) l))%nat).
  { clear - H. induction l as [|t l IH]; intros []; unfold list_sum; cbn [map fold_right]; fold (list_sum (map (occ comma) l)); [subst t; pose proof (occ_in comma v H); lia|]. specialize (IH H0). lia. }
  specialize (S _ I). lia.
Qed.
Print Assumptions comma_refuted.

(** Kinds 9 and 10 have each other's separator: the constants with their values stand on one line, their names one per line. *)
Theorem constants_refuted : forall st pe O P, reach st P -> complete O -> library_ok pe P ->
  (exists ts, printParams pe O true P 9 = concat (map (fun t => t ++ [comma]) ts) /\ Forall2 (matches Both) (constants_of O) ts /\ ~ In nl (printParams pe O true P 9)) /\
  (exists ts, printParams pe O true P 10 = concat (map (fun t => t ++ [nl]) ts) /\ Forall2 (matches Names) (constants_of O) ts /\ ~ In comma (printParams pe O true P 10)).
Proof.
  intros st pe O P R C L. pose proof (consts_fit pe O P L C) as F. apply reach_wf in R.
  assert (NM : forall nv, In nv (const_items pe O) -> ~ In nl (lowerCaseString (fst nv)) /\ ~ In comma (lowerCaseString (fst nv))).
  { intros nv H. destruct C as (_ & _ & _ & C1 & C2). unfold const_items in H. apply in_app_or in H. destruct H as [H|H]; apply in_map_iff in H; destruct H as (c & <- & H); cbn [fst];
      [apply (Permutation_in _ C1) in H|apply (Permutation_in _ C2) in H]; revert c H; apply Forall_forall;
      (unfold intConsts || unfold doubleConsts); repeat (constructor; [cbn [fst]; split; vm_compute; intuition discriminate|]); constructor. }
  assert (NF : forall c sep ts, c <> sep -> Forall (fun t => ~ In c t) ts -> ~ In c (followed sep ts)).
  { intros c sep ts N FT H. unfold followed in H. apply in_concat in H. destruct H as (t & T & H). apply in_map_iff in T. destruct T as (u & <- & U).
    apply in_app_or in H. destruct H as [H|[H|[]]]; [|congruence]. rewrite Forall_forall in FT. exact (FT u U H). }
  assert (WI : forall what, what = 9%Z \/ what = 10%Z -> what_items pe O P what = const_items pe O) by (intros what [-> | ->]; reflexivity).
  split.
  - exists (map (fun nv => to_string 0 (fst nv) (snd nv)) (const_items pe O)).
    assert (E : printParams pe O true P 9 = followed comma (map (fun nv => to_string 0 (fst nv) (snd nv)) (const_items pe O))) by (rewrite print_block, (WI 9%Z (or_introl eq_refl)); reflexivity).
    split; [exact E|]. split; [exact (block_matches Both _ _ F)|]. rewrite E. apply NF; [discriminate|]. rewrite Forall_forall. intros t H. apply in_map_iff in H. destruct H as (nv & <- & H).
    unfold to_string. cbn [Z.eqb]. intro X. apply in_app_or in X. destruct X as [X|X]; [exact (proj1 (NM nv H) X)|]. destruct X as [X|X]; [discriminate X|]. exact (consts_plain pe O P L nl nv nl_plain C H X).
  - exists (map (fun nv => to_string 1 (fst nv) (snd nv)) (const_items pe O)).
    assert (E : printParams pe O true P 10 = followed nl (map (fun nv => to_string 1 (fst nv) (snd nv)) (const_items pe O))) by (rewrite print_block, (WI 10%Z (or_intror eq_refl)); reflexivity).
    split; [exact E|]. split; [exact (block_matches Names _ _ F)|]. rewrite E. apply NF; [discriminate|]. rewrite Forall_forall. intros t H. apply in_map_iff in H. destruct H as (nv & <- & H).
    exact (proj2 (NM nv H)).
Qed.
Print Assumptions constants_refuted.

(** ** Reading the printed file back *)
(** What kind 6 writes is not something readParams can use: with an empty string (every new object has some) reading ends the program,
    and otherwise no parameter but CUTLIMIT is set. *)
Theorem read_back_refuted : forall st pe O P P0, reach st P -> reach st P0 -> complete O -> library_ok pe P -> (forall k v, get_string P k = Done v -> ~ In nl v) ->
  let file := lines_of (printParams pe O true P 6) in
  (forall k, get_string P k = Done [] -> readParams st P0 (Some file) = Terminated) /\
  ((forall k, get_string P k <> Done []) -> exists P', readParams st P0 (Some file) = Done P' /\ same_but_int CUTLIMIT P0 P').
Proof.
  intros st pe O P P0 R R0 C L NS file. apply reach_wf in R. pose proof (all_fit pe O P R L) as F.
  assert (E : file = map (fun nv => lowerCaseString (fst nv) ++ comma :: snd nv) (what_items pe O P 6)).
  { unfold file, lines_of. rewrite print6, split_followed; [apply removelast_last|]. rewrite Forall_forall. intros t H. apply in_map_iff in H. destruct H as (nv & <- & H). intro X.
    apply in_app_or in X. destruct X as [X|[X|X]]; [|discriminate X|].
    - destruct (Forall2_in_r _ _ _ _ F H) as (i & I & N & _). apply (proj1 (proj2 (names_of_items O P i I))). rewrite <- N. exact X.
    - destruct (all_values pe O P nl nv R L nl_plain H) as [[A _]|(k & _ & K)]; [now apply A|exact (NS k _ K X)]. }
  assert (NC : forall nv, In nv (what_items pe O P 6) -> ~ In ","%char (lowerCaseString (fst nv))).
  { intros nv H. destruct (Forall2_in_r _ _ _ _ F H) as (i & I & N & _). rewrite N. apply (names_of_items O P i I). }
  destruct (C41_SetByName.read_params st P0 R0) as (_ & RP1 & RP2). split.
  - intros k G. apply RP2. intro FA. rewrite Forall_forall in FA. rewrite E in FA.
    assert (I : In (string_nv P k) (what_items pe O P 6)).
    { unfold what_items. cbn [one_of existsb Z.eqb Pos.eqb orb app]. rewrite app_nil_r. apply in_or_app. right. rewrite string_items_map by exact R. apply in_map.
      destruct C as (_ & _ & C & _). apply (Permutation_in _ (Permutation_sym C)). unfold all_string. destruct k; cbn; tauto. }
    assert (V : snd (string_nv P k) = []) by (unfold string_nv, get_string in *; destruct (lookup string_eqb (strings P) k); [now injection G|discriminate G]).
    destruct (FA _ (in_map (fun nv => lowerCaseString (fst nv) ++ comma :: snd nv) _ _ I)) as [X|(n & v & X & N1 & N2)].
    + apply app_eq_nil in X. destruct X as [_ X]. discriminate X.
    + pose proof (C41_SetByName.getline_tok_app ","%char _ (snd (string_nv P k)) (NC _ I)) as G1. pose proof (C41_SetByName.getline_tok_app ","%char n v N1) as G2.
      assert (G3 : (lowerCaseString (fst (string_nv P k)), snd (string_nv P k)) = (n, v)) by exact (eq_trans (eq_trans (eq_sym G1) (f_equal _ X)) G2).
      injection G3 as _ G3. congruence.
  - intro NE. apply RP1. rewrite E, Forall_forall. intros t H. apply in_map_iff in H. destruct H as (nv & <- & H). right. exists (lowerCaseString (fst nv)), (snd nv).
    split; [reflexivity|]. split; [exact (NC nv H)|]. destruct (all_values pe O P nl nv R L nl_plain H) as [[_ A]|(k & _ & K)]; [exact A|]. intro X. apply (NE k). rewrite K. f_equal. exact X.
Qed.
Print Assumptions read_back_refuted.

(** Doubles are printed to four digits: another value is not the one shown. *)
Theorem precision_refuted : forall st pe O P k j q e, reach st P -> complete O -> library_ok pe P -> nth_error (o_double O) j = Some k ->
  get_double P k = Done (DFin q) -> Qabs q <= DBL_MAXv - EPS7 -> ReportSpec.power e <= Qabs q < ReportSpec.power (e + 1) ->
  (forall z, ~ q == inject_Z z * ReportSpec.power (e - 3)) ->
  exists t w, nth_error (split_on comma (printParams pe O true P 2)) (List.length (o_int O) + j) = Some t /\ ReportSpec.number t w /\ ~ w == q.
Proof.
  intros st pe O P k j q e R C L J G A E NZ. apply reach_wf in R. pose proof (proj1 L k q G A) as PE. pose proof PE as (_ & w & N & _ & D). exists (pe q), w.
  split; [|split; [exact N|]].
  - rewrite print_block. change (Z.rem 2 3) with 2%Z. unfold what_items. cbn [one_of existsb Z.eqb Pos.eqb orb app]. rewrite !app_nil_r. rewrite split_followed.
    + rewrite int_items_map, double_items_map by exact R. rewrite map_app, !map_map, <- app_assoc. rewrite nth_error_app2 by (rewrite map_length; lia). rewrite map_length.
      replace (List.length (o_int O) + j - List.length (o_int O))%nat with j by lia. rewrite nth_error_app1 by (rewrite map_length; apply nth_error_Some; congruence).
      erewrite map_nth_error by exact J. f_equal. unfold double_nv, get_double in *. destruct (lookup double_eqb (doubles P) k) as [p|]; [|discriminate G]. injection G as G. rewrite G.
      cbn [fst snd]. unfold to_string. cbn [Z.eqb Pos.eqb]. now apply num_value.
    + rewrite Forall_forall. intros t H. apply in_map_iff in H. destruct H as (nv & <- & H). unfold to_string. cbn [Z.eqb Pos.eqb]. exact (proj1 (numeric_plain pe O P R L comma nv comma_plain H)).
  - intro X. destruct (D e E) as [(z & Z1) _]. apply (NZ z). now rewrite <- X.
Qed.
Print Assumptions precision_refuted.

(** The number of disjunctive terms is padded so that texts are in the order of the numbers; up to five digits that is so. *)
Lemma padded_digits z : (0 <= z < 100000)%Z -> List.length (int_value true z) = 5%nat /\ unsigned (int_value true z) z.
Proof.
  intro H. unfold int_value. rewrite zd_inf, zd_ninf. unfold Parameters.INT_MAX. change (2 ^ 31 - 1)%Z with 2147483647%Z.
  destruct (Z.leb_spec 2147483647 z) as [A|A]; [lia|]. destruct (Z.leb_spec z (- (2147483647))) as [B|B]; [lia|].
  assert (LD : (List.length (digits (Z.abs z)) <= 5)%nat) by (apply digits_length; [change (10 ^ Z.of_nat 5)%Z with 100000%Z; lia|lia]).
  assert (ZP : zero_padded 5 z = repeat "0"%char (5 - List.length (digits (Z.abs z))) ++ digits (Z.abs z)).
  { unfold zero_padded. destruct (Z.ltb_spec z 0); [lia|]. cbn [List.length app]. now rewrite Nat.sub_0_r. }
  assert (LZ : List.length (zero_padded 5 z) = 5%nat) by (rewrite ZP, app_length, repeat_length; lia).
  unfold into500. rewrite firstn_all2 by lia. split; [exact LZ|]. rewrite ZP. apply unsigned_zeros. replace z with (Z.abs z) at 2 by lia. apply digits_spec. lia.
Qed.
Theorem terms_sort : forall st pe O P P' a b j, reach st P -> reach st P' -> complete O -> library_ok pe P -> library_ok pe P' ->
  get_int P DISJ_TERMS = Done a -> get_int P' DISJ_TERMS = Done b -> (0 <= a < b)%Z -> (b < 100000)%Z -> nth_error (o_int O) j = Some DISJ_TERMS ->
  exists t t', nth_error (split_on comma (printParams pe O true P 2)) j = Some t /\ nth_error (split_on comma (printParams pe O true P' 2)) j = Some t' /\ text_lt t t'.
Proof.
  intros st pe O P P' a b j R R' C L L' GA GB AB B5 J.
  assert (K : forall P0 z, reach st P0 -> library_ok pe P0 -> get_int P0 DISJ_TERMS = Done z -> nth_error (split_on comma (printParams pe O true P0 2)) j = Some (int_value true z)).
  { intros P0 z R0 L0 G. apply reach_wf in R0. rewrite print_block. change (Z.rem 2 3) with 2%Z. unfold what_items. cbn [one_of existsb Z.eqb Pos.eqb orb app]. rewrite !app_nil_r. rewrite split_followed.
    - rewrite int_items_map, double_items_map by exact R0. rewrite map_app, !map_map, <- app_assoc. rewrite nth_error_app1 by (rewrite map_length; apply nth_error_Some; congruence).
      erewrite map_nth_error by exact J. f_equal. unfold int_nv, get_int in *. destruct (lookup int_eqb (ints P0) DISJ_TERMS) as [p|]; [|discriminate G]. injection G as ->. reflexivity.
    - rewrite Forall_forall. intros t H. apply in_map_iff in H. destruct H as (nv & <- & H). unfold to_string. cbn [Z.eqb Pos.eqb]. exact (proj1 (numeric_plain pe O P0 R0 L0 comma nv comma_plain H)). }
  exists (int_value true a), (int_value true b). split; [now apply K|]. split; [now apply K|].
  destruct (padded_digits a) as (LA & _ & FA & VA); [lia|]. destruct (padded_digits b) as (LB & _ & FB & VB); [lia|].
  apply digits_sorted; [congruence|exact FA|exact FB|rewrite <- VA, <- VB; lia].
Qed.
Print Assumptions terms_sort.

(** ** A case *)
(** The library on the doubles of a new object and the constants. *)
Definition expe (q : Q) : text :=
  if Qeq_bool q 0 then txt "0.000e+00" else if Qeq_bool q 60 then txt "6.000e+01" else if Qeq_bool q (1 # 1000) then txt "1.000e-03"
  else if Qeq_bool q (1 # 10000000) then txt "1.000e-07" else if Qeq_bool q 1 then txt "1.000e+00" else if Qeq_bool q (-1) then txt "-1.000e+00"
  else if Qeq_bool q (9 # 10) then txt "9.000e-01" else if Qeq_bool q 3600 then txt "3.600e+03" else if Qeq_bool q (inject_Z (10 ^ 13)) then txt "1.000e+13"
  else if Qeq_bool q (inject_Z (10 ^ 8)) then txt "1.000e+08" else if Qeq_bool q (1 # 10000000000000) then txt "1.000e-13" else if Qeq_bool q (1 # 100000) then txt "1.000e-05"
  else if Qeq_bool q 5 then txt "5.000e+00" else [].
Definition exO : orders := {| o_int := all_int; o_double := all_double; o_string := all_string; o_ci := intConsts; o_cd := doubleConsts |}.
Lemma power_mono a b : (a <= b)%Z -> ReportSpec.power a <= ReportSpec.power b.
Proof.
  intro H. replace b with (a + (b - a))%Z by lia. rewrite power_plus. assert (K : 1 <= ReportSpec.power (b - a)).
  { unfold ReportSpec.power. destruct (Z.leb_spec 0 (b - a)) as [L|L]; [|lia]. change 1 with (inject_Z 1). rewrite <- Zle_Qle. pose proof (Z.pow_pos_nonneg 10 (b - a)). lia. }
  pose proof (power_gt0 a). setoid_replace (ReportSpec.power a) with (ReportSpec.power a * 1) at 1 by ring. apply Qmult_le_l; assumption.
Qed.
Lemma decade_unique q d e : ReportSpec.power d <= q < ReportSpec.power (d + 1) -> ReportSpec.power e <= q < ReportSpec.power (e + 1) -> d = e.
Proof.
  intros [D1 D2] [E1 E2]. destruct (Z.lt_trichotomy d e) as [H|[H|H]]; [|exact H|].
  - pose proof (power_mono (d + 1) e ltac:(lia)). lra.
  - pose proof (power_mono (e + 1) d ltac:(lia)). lra.
Qed.
Lemma prints_exact pe q e k : (List.length (pe q) <= 20)%nat -> ReportSpec.number (pe q) q ->
  (q == 0 \/ (ReportSpec.power e <= Qabs q < ReportSpec.power (e + 1) /\ q == inject_Z k * ReportSpec.power (e - 3))) -> prints_e pe q.
Proof.
  intros L N H. split; [exact L|]. exists q. split; [exact N|]. split; [tauto|]. intros e' E. assert (D : Qabs (q - q) <= (1 # 2) * ReportSpec.power (e' - 3)).
  { setoid_replace (q - q) with 0 by ring. change (Qabs 0) with 0. pose proof (power_gt0 (e' - 3)). lra. }
  split; [|exact D]. destruct H as [H|[H1 H2]].
  - exists 0%Z. rewrite H. change (inject_Z 0) with 0. ring.
  - rewrite <- (decade_unique _ _ _ H1 E). now exists k.
Qed.
Lemma number_e sg i f x e v : (sg = [] \/ sg = txt "-") -> unsigned i (dec_value i) -> unsigned f (dec_value f) -> ReportSpec.exponent x e ->
  v == (if text_eqb sg [] then 1 else -1) * ((inject_Z (dec_value i) + inject_Z (dec_value f) / inject_Z (10 ^ Z.of_nat (List.length f))) * ReportSpec.power e) ->
  ReportSpec.number (sg ++ (i ++ "."%char :: f) ++ x) v.
Proof.
  intros S I F X V. exists sg, (i ++ "."%char :: f), x, (inject_Z (dec_value i) + inject_Z (dec_value f) / inject_Z (10 ^ Z.of_nat (List.length f))), e. split; [reflexivity|].
  split; [right; exists i, f, (dec_value i), (dec_value f); split; [reflexivity|split; [exact I|split; [exact F|reflexivity]]]|]. split; [exact X|].
  destruct S as [-> | ->]; cbn [text_eqb] in V; [left|right]; (split; [auto|]); rewrite V; [ring|]. change (text_eqb (txt "-") []) with false. cbn iota. ring.
Qed.
Ltac numeral_ok := apply C78_Report.unsigned_dec; [discriminate|vm_compute; reflexivity].
Ltac expe_ok sg i f u es e0 k0 :=
  apply (prints_exact expe) with (e := e0) (k := k0);
  [ vm_compute; lia
  | match goal with |- ReportSpec.number _ ?v => change (ReportSpec.number (sg ++ (i ++ "."%char :: f) ++ (es ++ u)) v) end; apply number_e with (e := e0);
      [ first [left; reflexivity | right; reflexivity] | numeral_ok | numeral_ok
      | first [ right; left; exists u; split; [reflexivity|numeral_ok] | right; right; exists u, (dec_value u); split; [reflexivity|split; [numeral_ok|reflexivity]] ]
      | vm_compute; reflexivity ]
  | first [ left; reflexivity | right; split; [split; [vm_compute; discriminate|vm_compute; reflexivity]|vm_compute; reflexivity] ] ].
Lemma expe_0 : prints_e expe 0.
Proof. expe_ok (txt "") (txt "0") (txt "000") (txt "00") (txt "e+") 0%Z 0%Z. Qed.
Lemma expe_60 : prints_e expe 60.
Proof. expe_ok (txt "") (txt "6") (txt "000") (txt "01") (txt "e+") 1%Z 6000%Z. Qed.
Lemma expe_m1 : prints_e expe (-1).
Proof. expe_ok (txt "-") (txt "1") (txt "000") (txt "00") (txt "e+") 0%Z (-1000)%Z. Qed.
Lemma expe_3600 : prints_e expe 3600.
Proof. expe_ok (txt "") (txt "3") (txt "600") (txt "03") (txt "e+") 3%Z 3600%Z. Qed.
Lemma expe_1 : prints_e expe 1.
Proof. expe_ok (txt "") (txt "1") (txt "000") (txt "00") (txt "e+") 0%Z 1000%Z. Qed.
Lemma expe_5 : prints_e expe 5.
Proof. expe_ok (txt "") (txt "5") (txt "000") (txt "00") (txt "e+") 0%Z 5000%Z. Qed.
Lemma expe_e3 : prints_e expe (1 # 1000).
Proof. expe_ok (txt "") (txt "1") (txt "000") (txt "03") (txt "e-") (-3)%Z 1000%Z. Qed.
Lemma expe_e5 : prints_e expe (1 # 100000).
Proof. expe_ok (txt "") (txt "1") (txt "000") (txt "05") (txt "e-") (-5)%Z 1000%Z. Qed.
Lemma expe_e7 : prints_e expe (1 # 10000000).
Proof. expe_ok (txt "") (txt "1") (txt "000") (txt "07") (txt "e-") (-7)%Z 1000%Z. Qed.
Lemma expe_e13 : prints_e expe (1 # 10000000000000).
Proof. expe_ok (txt "") (txt "1") (txt "000") (txt "13") (txt "e-") (-13)%Z 1000%Z. Qed.
Lemma expe_8 : prints_e expe (inject_Z (10 ^ 8)).
Proof. expe_ok (txt "") (txt "1") (txt "000") (txt "08") (txt "e+") 8%Z 1000%Z. Qed.
Lemma expe_13 : prints_e expe (inject_Z (10 ^ 13)).
Proof. expe_ok (txt "") (txt "1") (txt "000") (txt "13") (txt "e+") 13%Z 1000%Z. Qed.
Example printed_meets : forall st, reach st new_params /\ complete exO /\ library_ok expe new_params /\
  (forall k v, get_string new_params k = Done v -> ~ In comma v /\ ~ In nl v) /\
  firstn 6 (lines_of (printParams expe exO true new_params 6)) =
    [txt "cutlimit,-1"; txt "disj_terms,00000"; txt "gomory,0"; txt "max_num_hot_start_viol,2"; txt "mode,0"; txt "partial_bb_strategy,4"] /\
  get_string new_params SOLFILE = Done [] /\ readParams st new_params (Some (lines_of (printParams expe exO true new_params 6))) = Terminated.
Proof.
  intro st. assert (R : reach st new_params) by constructor. assert (C : complete exO) by (repeat split; apply Permutation_refl).
  assert (L : library_ok expe new_params).
  { split.
    - intros k q G A. destruct k; vm_compute in G; injection G as <-;
        solve [exact expe_60|exact expe_m1|exact expe_3600|exact expe_0|exact expe_e7|exact expe_1|exact expe_e3|exfalso; apply A; vm_compute; reflexivity].
    - intros c H. repeat (destruct H as [<- | H]; [solve [exact expe_13|exact expe_8|exact expe_e7|exact expe_e13|exact expe_e5|exact expe_5|exact expe_e3]|]). destruct H. }
  split; [exact R|]. split; [exact C|]. split; [exact L|].
  assert (NS : forall k v, get_string new_params k = Done v -> ~ In comma v /\ ~ In nl v) by (intros k v G; destruct k; vm_compute in G; injection G as <-; split; vm_compute; intuition discriminate).
  split; [exact NS|]. split; [vm_compute; reflexivity|]. split; [vm_compute; reflexivity|].
  apply (read_back_refuted st expe exO new_params new_params R R C L (fun k v G => proj2 (NS k v G))) with (k := SOLFILE). vm_compute. reflexivity.
Qed.
(** A time limit of 12345 seconds is shown as 12340 or 12350 (1.234e+04, 1.235e+04). *)
Definition limited : params := match set_double new_params TIMELIMIT (DFin 12345) with Done P => P | _ => new_params end.
Example precision_meets : forall st, reach st limited /\ nth_error (o_double exO) 9 = Some TIMELIMIT /\ get_double limited TIMELIMIT = Done (DFin 12345) /\
  Qabs 12345 <= DBL_MAXv - EPS7 /\ ReportSpec.power 4 <= Qabs 12345 < ReportSpec.power (4 + 1) /\ forall z, ~ 12345 == inject_Z z * ReportSpec.power (4 - 3).
Proof.
  intro st. split; [|split; [reflexivity|]].
  - apply (reach_step st new_params (SetDouble TIMELIMIT (DFin 12345))); [constructor|exact Logic.I|vm_compute; reflexivity].
  - split; [vm_compute; reflexivity|]. split; [vm_compute; discriminate|]. split; [split; vm_compute; [discriminate|reflexivity]|].
    intros z H. change (ReportSpec.power (4 - 3)) with (inject_Z 10) in H. rewrite <- inject_Z_mult in H. change 12345 with (inject_Z 12345) in H. apply (proj1 (inject_Z_injective _ _)) in H. lia.
Qed.
(** Six digits no longer sort: 99999 before 100000 as numbers, after it as texts. *)
Example terms_sort_limit : text_lt (int_value true 100000) (int_value true 99999) /\ text_lt (int_value true 999) (int_value true 1000) /\ ~ text_lt (int_value false 999) (int_value false 1000).
Proof.
  split; [vm_compute; left; lia|]. split; [vm_compute; right; split; [reflexivity|left; lia]|]. vm_compute. intros [H|[H _]]; [lia|discriminate H].
Qed.
