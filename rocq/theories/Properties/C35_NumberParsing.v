(** C35: number parsing accepts exactly numbers and reports failure otherwise. *)
From Verif Require Import Prelude Model.TextUtil Spec.TextSpec Proofs.TextP.

Lemma parseLong_numeral s z : numeral s z ->
  parseLong s = ((LONG_MIN <=? z)%Z && (z <=? LONG_MAX)%Z, sl_val (clamp z)).
Proof.
  intro H. unfold parseLong. rewrite (strtol_numeral s z H). unfold clamp.
  destruct (Z.ltb_spec z LONG_MIN), (Z.ltb_spec LONG_MAX z), (Z.leb_spec LONG_MIN z), (Z.leb_spec z LONG_MAX);
    try lia; cbn [sl_rest sl_val sl_erange andb]; rewrite ?Z.eqb_refl, ?andb_false_r, ?orb_true_r; reflexivity.
Qed.

(** parseLong succeeds exactly on optionally signed decimal numerals that fit a long, and then stores
    the value. *)
Theorem parse_long : forall s,
  (fst (parseLong s) = true <-> exists z, numeral s z /\ (LONG_MIN <= z <= LONG_MAX)%Z) /\
  (forall z, numeral s z -> (LONG_MIN <= z <= LONG_MAX)%Z -> parseLong s = (true, z)).
Proof.
  intro s. assert (A : forall z, numeral s z -> (LONG_MIN <= z <= LONG_MAX)%Z -> parseLong s = (true, z)).
  { intros z H R. rewrite (parseLong_numeral s z H). unfold clamp.
    destruct (Z.ltb_spec z LONG_MIN), (Z.ltb_spec LONG_MAX z), (Z.leb_spec LONG_MIN z), (Z.leb_spec z LONG_MAX);
      try lia; reflexivity. }
  split; [|exact A]. split.
  - intro H. destruct (strtol_complete s) as [z Hz].
    { unfold parseLong in H. cbn [fst] in H. destruct (sl_rest (strtol s)) as [[|]|]; try discriminate. reflexivity. }
    exists z. split; [exact Hz|]. rewrite (parseLong_numeral s z Hz) in H. cbn [fst] in H.
    apply andb_true_iff in H. rewrite !Z.leb_le in H. exact H.
  - intros (z & H & R). rewrite (A z H R). reflexivity.
Qed.
Print Assumptions parse_long.

(** A numeral has only one value, so the theorem above leaves no choice. *)
Theorem numeral_unique : forall s z z', numeral s z -> numeral s z' -> z = z'.
Proof.
  intros s z z' (ws & sg & ds & E & Hw & Hd & Hn & Hs) (ws' & sg' & ds' & E' & Hw' & Hd' & Hn' & Hs').
  assert (SS : forall (w w' t t' : text), w ++ t = w' ++ t' ->
     Forall (fun c => is_space c = true) w -> Forall (fun c => is_space c = true) w' ->
     match t with c :: _ => is_space c = false | [] => True end ->
     match t' with c :: _ => is_space c = false | [] => True end -> t = t').
  { intros w w' t t' Eq W W' T T'. rewrite <- (skip_space_app w t W T), Eq. apply skip_space_app; assumption. }
  assert (T : forall sg ds, Forall (fun c => (48 <= nat_of_ascii c <= 57)%nat) ds -> ds <> [] ->
     (sg = [] \/ sg = ["+"%char] \/ sg = ["-"%char]) ->
     match sg ++ ds with c :: _ => is_space c = false | [] => True end).
  { intros sg0 [|d ds0] H1 H2 H3; [congruence|]. apply Forall_inv in H1. apply is_digit_spec in H1.
    destruct H3 as [->|[->| ->]]; cbn [app]; [apply digit_not_space, H1|reflexivity|reflexivity]. }
  assert (G1 : sg = [] \/ sg = ["+"%char] \/ sg = ["-"%char]) by tauto.
  assert (G2 : sg' = [] \/ sg' = ["+"%char] \/ sg' = ["-"%char]) by tauto.
  assert (W : forall w, Forall (fun c => c = " "%char \/ (9 <= nat_of_ascii c <= 13)%nat) w ->
     Forall (fun c => is_space c = true) w) by (intros w; apply Forall_impl; intro; apply is_space_spec).
  assert (Eq : sg ++ ds = sg' ++ ds').
  { apply (SS ws ws'); [congruence|apply W, Hw|apply W, Hw'|apply T; assumption|apply T; assumption]. }
  destruct ds as [|d ds]; [congruence|]. destruct ds' as [|d' ds']; [congruence|].
  apply Forall_inv in Hd. apply Forall_inv in Hd'. apply is_digit_spec in Hd, Hd'.
  destruct (digit_not_sign d Hd), (digit_not_sign d' Hd').
  destruct Hs as [[[->| ->] ->]|[-> ->]], Hs' as [[[->| ->] ->]|[-> ->]]; cbn [app] in Eq; congruence.
Qed.
Print Assumptions numeral_unique.

(** parseInt accepts the same texts; it stores the value when it fits an int. *)
Theorem parse_int : forall s z,
  numeral s z -> (LONG_MIN <= z <= LONG_MAX)%Z ->
  fst (parseInt s) = true /\ ((- 2 ^ 31 <= z < 2 ^ 31)%Z <-> snd (parseInt s) = z).
Proof.
  intros s z H R. unfold parseInt. rewrite (proj2 (parse_long s) z H R). cbn [fst snd].
  split; [reflexivity|]. unfold to_int. split.
  - intro Z. rewrite Z.mod_small by lia. lia.
  - intro E. assert (B := Z.mod_pos_bound (z + 2 ^ 31) (2 ^ 32) eq_refl). lia.
Qed.
Print Assumptions parse_int.
Theorem parse_int_rejects : forall s, fst (parseInt s) = fst (parseLong s).
Proof. intro s. unfold parseInt. destruct (parseLong s). reflexivity. Qed.
Print Assumptions parse_int_rejects.

(** Values beyond int are accepted and silently replaced by another number. *)
Theorem parse_int_out_of_range_refuted :
  numeral (txt "4294967297") 4294967297 /\ parseInt (txt "4294967297") = (true, 1%Z).
Proof.
  split; [|vm_compute; reflexivity]. exists [], [], (txt "4294967297"). split; [reflexivity|]. split; [constructor|].
  split; [repeat constructor; vm_compute; lia|]. split; [discriminate|]. left. split; [left; reflexivity|vm_compute; reflexivity].
Qed.
Print Assumptions parse_int_out_of_range_refuted.

(** parseDouble: accepted exactly when strtod converted the whole text and did not report a range
    error together with one of three finite values; then strtod's value is stored. *)
Theorem parse_double : forall r,
  fst (parseDouble r) = true <->
  sd_rest r = Some [] /\
  (sd_erange r = true -> forall q, sd_val r = DFin q -> ~ q == DBL_MINpos /\ ~ q == - DBL_MAXv /\ ~ q == DBL_MAXv).
Proof.
  intro r. unfold parseDouble. cbn [fst]. destruct (sd_rest r) as [[|c t]|]; try (split; [discriminate|intros [H _]; discriminate]).
  rewrite negb_true_iff, andb_false_iff, !orb_false_iff. unfold dbl_is. split.
  - intro H. split; [reflexivity|]. intros E q Eq. rewrite E, Eq in H.
    destruct H as [[[H1 H2] H3]|H]; [|discriminate]. apply Qeq_bool_neq in H1, H2, H3. tauto.
  - intros [_ H]. destruct (sd_erange r); [left|right; reflexivity]. destruct (sd_val r) as [q| |]; auto.
    destruct (H eq_refl q eq_refl) as (H1 & H2 & H3).
    rewrite <- !not_true_iff_false. rewrite !Qeq_bool_iff. tauto.
Qed.
Print Assumptions parse_double.
Theorem parse_double_value : forall r, snd (parseDouble r) = sd_val r.
Proof. reflexivity. Qed.
Print Assumptions parse_double_value.

(** strtod reports overflow as +-infinity with ERANGE (C standard), which the test does not look for:
    "1e999" is accepted with an infinite value. *)
Theorem parse_double_overflow_refuted : forall neg,
  parseDouble {| sd_val := DInf neg; sd_rest := Some []; sd_erange := true |} = (true, DInf neg).
Proof. reflexivity. Qed.
Print Assumptions parse_double_overflow_refuted.

Example parse_example :
  numeral (txt " -012") (-12) /\ parseLong (txt " -012") = (true, (-12)%Z) /\
  fst (parseLong (txt "12x")) = false /\ fst (parseLong (txt "")) = false /\ fst (parseLong (txt "- 3")) = false /\
  fst (parseLong (txt "9223372036854775807")) = true /\ fst (parseLong (txt "9223372036854775808")) = false /\
  parseInt (txt "+7") = (true, 7%Z).
Proof.
  split; [|vm_compute; repeat split]. exists [" "%char], ["-"%char], (txt "012"). split; [reflexivity|].
  split; [repeat constructor|]. split; [repeat constructor; vm_compute; lia|]. split; [discriminate|].
  right. split; vm_compute; reflexivity.
Qed.
