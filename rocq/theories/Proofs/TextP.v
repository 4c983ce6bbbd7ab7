(** Lemmas about the text utilities. *)
From Verif Require Import Prelude Model.TextUtil Spec.TextSpec.

Lemma text_eqb_eq a b : text_eqb a b = true <-> a = b.
Proof.
  revert b. induction a as [|x a IH]; intros [|y b]; cbn [text_eqb]; try (split; [discriminate|congruence] || tauto).
  rewrite andb_true_iff, Ascii.eqb_eq, IH. split; [intros [-> ->]; reflexivity|]. intro E. injection E as -> ->. auto.
Qed.
Lemma text_eqb_refl a : text_eqb a a = true. Proof. apply text_eqb_eq. reflexivity. Qed.

(** ** Numerals *)
Definition all_digits (ds : text) := Forall (fun c => is_digit c = true) ds.
Lemma is_digit_spec c : is_digit c = true <-> (48 <= nat_of_ascii c <= 57)%nat.
Proof. unfold is_digit, code. rewrite andb_true_iff, !Nat.leb_le. tauto. Qed.
Lemma is_space_spec c : is_space c = true <-> c = " "%char \/ (9 <= nat_of_ascii c <= 13)%nat.
Proof.
  unfold is_space, code. rewrite orb_true_iff, andb_true_iff, !Nat.leb_le, Nat.eqb_eq.
  split; (intros [H|H]; [left|right; exact H]).
  - change 32%nat with (nat_of_ascii " "%char) in H. rewrite <- (ascii_nat_embedding c), H. reflexivity.
  - rewrite H. reflexivity.
Qed.

Lemma read_digits_app acc ds rest : all_digits ds ->
  match rest with c :: _ => is_digit c = false | [] => True end ->
  read_digits acc (ds ++ rest) = ((acc * 10 ^ Z.of_nat (length ds) + dec_value ds)%Z, rest).
Proof.
  revert acc. induction ds as [|d r IH]; intros acc Hd Hr.
  - cbn [app length dec_value]. replace (acc * 10 ^ Z.of_nat 0 + 0)%Z with acc by (cbn; lia).
    destruct rest as [|c rest]; [reflexivity|]. cbn [read_digits]. rewrite Hr. reflexivity.
  - apply Forall_cons_iff in Hd. destruct Hd as [Hd Hd']. cbn [app read_digits]. rewrite Hd, IH by assumption.
    f_equal. cbn [length dec_value]. unfold digit_val, code.
    rewrite Nat2Z.inj_succ, Z.pow_succ_r by lia. ring.
Qed.
Lemma read_digits_split s : exists ds rest, s = ds ++ rest /\ all_digits ds /\
  match rest with c :: _ => is_digit c = false | [] => True end.
Proof.
  induction s as [|c s (ds & rest & E & H1 & H2)].
  - exists [], []. repeat split. constructor.
  - destruct (is_digit c) eqn:Ec.
    + exists (c :: ds), rest. split; [cbn; congruence|]. split; [constructor; assumption|exact H2].
    + exists [], (c :: s). split; [reflexivity|]. split; [constructor|exact Ec].
Qed.
Lemma skip_space_app ws s : Forall (fun c => is_space c = true) ws ->
  match s with c :: _ => is_space c = false | [] => True end -> skip_space (ws ++ s) = s.
Proof.
  intros H Hs. induction ws as [|c ws IH]; cbn [app].
  - destruct s as [|c s]; [reflexivity|]. cbn [skip_space]. rewrite Hs. reflexivity.
  - apply Forall_cons_iff in H. destruct H as [H H']. cbn [skip_space]. rewrite H. apply IH, H'.
Qed.
Lemma skip_space_split s : exists ws, s = ws ++ skip_space s /\ Forall (fun c => is_space c = true) ws /\
  match skip_space s with c :: _ => is_space c = false | [] => True end.
Proof.
  induction s as [|c s (ws & E & H1 & H2)]; [exists []; repeat split; constructor|].
  cbn [skip_space]. destruct (is_space c) eqn:Ec.
  - exists (c :: ws). split; [cbn; congruence|]. split; [constructor; assumption|exact H2].
  - exists []. split; [reflexivity|]. split; [constructor|exact Ec].
Qed.
Lemma digit_not_space c : is_digit c = true -> is_space c = false.
Proof. rewrite is_digit_spec. intro H. destruct (is_space c) eqn:E; [|reflexivity]. exfalso.
  apply is_space_spec in E. destruct E as [->|E]; [cbn in H; lia|lia]. Qed.
Lemma digit_not_sign c : is_digit c = true -> c <> "-"%char /\ c <> "+"%char.
Proof. rewrite is_digit_spec. intro H. split; intros ->; cbn in H; lia. Qed.

Definition clamp (z : Z) : strtol_result :=
  if (z <? LONG_MIN)%Z then {| sl_val := LONG_MIN; sl_rest := Some []; sl_erange := true |}
  else if (LONG_MAX <? z)%Z then {| sl_val := LONG_MAX; sl_rest := Some []; sl_erange := true |}
  else {| sl_val := z; sl_rest := Some []; sl_erange := false |}.

Lemma strtol_numeral s z : numeral s z -> strtol s = clamp z.
Proof.
  intros (ws & sg & ds & E & Hw & Hd & Hn & Hs). subst s.
  assert (Hw' : Forall (fun c => is_space c = true) ws).
  { revert Hw. apply Forall_impl. intros c. apply is_space_spec. }
  assert (Hd' : all_digits ds). { revert Hd. apply Forall_impl. intros c. apply is_digit_spec. }
  destruct ds as [|d ds]; [congruence|].
  assert (Dd : is_digit d = true) by (apply Forall_inv in Hd'; exact Hd').
  destruct (digit_not_sign d Dd) as [N1 N2].
  unfold strtol. rewrite skip_space_app; [|exact Hw'|].
  2:{ destruct Hs as [[[->| ->] _]|[-> _]]; cbn [app]; [apply digit_not_space, Dd|reflexivity|reflexivity]. }
  assert (R := read_digits_app 0 (d :: ds) [] Hd' I). rewrite app_nil_r, Z.mul_0_l, Z.add_0_l in R.
  destruct Hs as [[[->| ->] ->]|[-> ->]]; cbn [app].
  - apply Ascii.eqb_neq in N1, N2. rewrite N1, N2, Dd, R. reflexivity.
  - cbn [Ascii.eqb Bool.eqb]. rewrite Dd, R. reflexivity.
  - cbn [Ascii.eqb Bool.eqb]. rewrite Dd, R. reflexivity.
Qed.

Lemma strtol_complete s : sl_rest (strtol s) = Some [] -> exists z, numeral s z.
Proof.
  unfold strtol. destruct (skip_space_split s) as (ws & E & Hw & Hh). set (s1 := skip_space s) in *.
  assert (Hw' : Forall (fun c => c = " "%char \/ (9 <= nat_of_ascii c <= 13)%nat) ws).
  { revert Hw. apply Forall_impl. intro c. apply is_space_spec. }
  assert (K : forall sg s2 (neg : bool), s1 = sg ++ s2 -> 
     (neg = false /\ (sg = [] \/ sg = ["+"%char]) \/ neg = true /\ sg = ["-"%char]) ->
     forall c r, s2 = c :: r -> is_digit c = true -> snd (read_digits 0 s2) = [] -> exists z, numeral s z).
  { intros sg s2 neg E1 Hsg c r E2 Dc R. 
    destruct (read_digits_split s2) as (ds & rest & E3 & H1 & H2). rewrite E3, read_digits_app in R by assumption.
    cbn [snd] in R. subst rest. rewrite app_nil_r in E3. subst s2.
    exists (if neg then (- dec_value ds)%Z else dec_value ds), ws, sg, ds.
    split; [congruence|]. split; [exact Hw'|].
    split; [revert H1; apply Forall_impl; intro; apply is_digit_spec|]. split; [congruence|].
    destruct Hsg as [[-> Hs]|[-> Hs]]; [left|right]; auto. }
  set (p := match s1 with [] => _ | _ => _ end).
  assert (PR : exists sg, s1 = sg ++ snd p /\
       (fst p = false /\ (sg = [] \/ sg = ["+"%char]) \/ fst p = true /\ sg = ["-"%char])).
  { subst p. clearbody s1. destruct s1 as [|c r]; [exists []; cbn; auto|].
    destruct (Ascii.eqb_spec c "-"%char) as [->|_]; [exists ["-"%char]; cbn; auto|].
    destruct (Ascii.eqb_spec c "+"%char) as [->|_]; [exists ["+"%char]; cbn; auto|]. exists []; cbn; auto. }
  destruct p as [neg s2]. cbn [fst snd] in PR. destruct PR as (sg & P1 & P2).
  destruct s2 as [|c r] eqn:E2; [discriminate|]. destruct (is_digit c) eqn:Dc; [|discriminate].
  rewrite <- E2 in *. destruct (read_digits 0 s2) as [v rest] eqn:ER.
  intro H. apply (K sg s2 neg P1 P2 c r E2 Dc). rewrite ER. cbn [snd].
  cbv zeta in H. destruct (_ <? LONG_MIN)%Z; [cbn in H; congruence|].
  destruct (LONG_MAX <? _)%Z; cbn in H; congruence.
Qed.

(** ** Last occurrence *)
Lemma find_last_none p s : find_last_of p s = None <-> Forall (fun c => p c = false) s.
Proof.
  induction s as [|c s IH]; cbn [find_last_of]; [split; constructor|].
  rewrite Forall_cons_iff, <- IH. destruct (find_last_of p s).
  - split; [discriminate|]. intros [_ H]; discriminate.
  - destruct (p c); split; try discriminate; try tauto. intros [H _]; discriminate.
Qed.
Lemma find_last_some p s k : find_last_of p s = Some k ->
  exists c, s = firstn k s ++ c :: skipn (S k) s /\ p c = true /\ Forall (fun c => p c = false) (skipn (S k) s)
    /\ (k < length s)%nat.
Proof.
  revert k. induction s as [|c s IH]; intros k; cbn [find_last_of]; [discriminate|].
  destruct (find_last_of p s) as [j|] eqn:E.
  - intro H. injection H as <-. destruct (IH j eq_refl) as (c' & E1 & E2 & E3 & E4).
    exists c'. cbn [firstn skipn app length]. split; [f_equal; exact E1|]. split; [exact E2|]. split; [exact E3|lia].
  - destruct (p c) eqn:Ec; [|discriminate]. intro H. injection H as <-. exists c.
    cbn [firstn skipn app length]. split; [reflexivity|]. split; [exact Ec|]. split; [apply find_last_none, E|lia].
Qed.
Lemma find_last_app p a c b : p c = true -> Forall (fun x => p x = false) b ->
  find_last_of p (a ++ c :: b) = Some (length a).
Proof.
  intros Hc Hb. induction a as [|x a IH]; cbn [app find_last_of length].
  - rewrite (proj2 (find_last_none p b) Hb), Hc. reflexivity.
  - rewrite IH. reflexivity.
Qed.
Lemma firstn_len {A} (a : list A) b : firstn (length a) (a ++ b) = a.
Proof. rewrite firstn_app, Nat.sub_diag, firstn_O, app_nil_r. apply firstn_all. Qed.
Lemma skipn_len {A} (a : list A) c b : skipn (S (length a)) (a ++ c :: b) = b.
Proof. induction a as [|x a IH]; [reflexivity|]. cbn [length app]. exact IH. Qed.

Lemma no_dot_forall s : no_char "."%char s <-> Forall (fun c => is_dot c = false) s.
Proof.
  unfold no_char, is_dot. rewrite Forall_forall. split.
  - intros H c Hc. apply Ascii.eqb_neq. intros ->. contradiction.
  - intros H C. specialize (H _ C). discriminate.
Qed.
Lemma no_slash_forall s : no_slash s <-> Forall (fun c => is_slash c = false) s.
Proof.
  unfold no_slash, no_char, is_slash. rewrite Forall_forall. split.
  - intros [H1 H2] c Hc. apply orb_false_iff. split; apply Ascii.eqb_neq; intros ->; contradiction.
  - intros H. split; intros C; specialize (H _ C); discriminate.
Qed.

(** ** Fields of a line *)
Lemma getline_tok_app d a r : no_char d a -> getline_tok d (a ++ d :: r) = (a, r).
Proof.
  unfold no_char. induction a as [|c a IH]; intro H; cbn [app getline_tok].
  - rewrite Ascii.eqb_refl. reflexivity.
  - destruct (Ascii.eqb_spec c d) as [->|N]; [exfalso; apply H; left; reflexivity|].
    rewrite IH by (intro C; apply H; right; exact C). reflexivity.
Qed.
Lemma getline_tok_end d a : no_char d a -> getline_tok d a = (a, []).
Proof.
  unfold no_char. induction a as [|c a IH]; intro H; cbn [getline_tok]; [reflexivity|].
  destruct (Ascii.eqb_spec c d) as [->|N]; [exfalso; apply H; left; reflexivity|].
  rewrite IH by (intro C; apply H; right; exact C). reflexivity.
Qed.
Lemma getline_tok_split d s : no_char d (fst (getline_tok d s)) /\
  (s = fst (getline_tok d s) ++ d :: snd (getline_tok d s) \/ s = fst (getline_tok d s) /\ snd (getline_tok d s) = []).
Proof.
  unfold no_char. induction s as [|c s [IH1 IH2]]; cbn [getline_tok].
  - cbn. split; [intros []|]. right. auto.
  - destruct (Ascii.eqb_spec c d) as [->|N]; [cbn; split; [intros []|left; reflexivity]|].
    destruct (getline_tok d s) as [t r]. cbn [fst snd] in *. split.
    + intros [C|C]; [congruence|contradiction].
    + destruct IH2 as [E|[E1 E2]]; [left|right]; cbn; [congruence|split; congruence].
Qed.
