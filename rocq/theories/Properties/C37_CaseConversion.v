(** C37: case conversion and comparison of names up to case and underscores. *)
From Verif Require Import Prelude Model.TextUtil Spec.TextSpec Proofs.TextP.

Lemma code_inj a b : nat_of_ascii a = nat_of_ascii b -> a = b.
Proof. intro H. rewrite <- (ascii_nat_embedding a), H. apply ascii_nat_embedding. Qed.
Lemma code_lower c : nat_of_ascii (tolower c) =
  (if Nat.leb 65 (nat_of_ascii c) && Nat.leb (nat_of_ascii c) 90 then nat_of_ascii c + 32 else nat_of_ascii c)%nat.
Proof.
  unfold tolower, code. destruct (Nat.leb_spec 65 (nat_of_ascii c)), (Nat.leb_spec (nat_of_ascii c) 90); cbn [andb]; try reflexivity.
  apply nat_ascii_embedding. lia.
Qed.
Lemma code_upper c : nat_of_ascii (toupper c) =
  (if Nat.leb 97 (nat_of_ascii c) && Nat.leb (nat_of_ascii c) 122 then nat_of_ascii c - 32 else nat_of_ascii c)%nat.
Proof.
  unfold toupper, code. destruct (Nat.leb_spec 97 (nat_of_ascii c)), (Nat.leb_spec (nat_of_ascii c) 122); cbn [andb]; try reflexivity.
  apply nat_ascii_embedding. lia.
Qed.
Ltac cases := repeat match goal with
  | H : context [Nat.leb ?a ?b] |- _ => destruct (Nat.leb_spec a b); cbn [andb] in *
  | |- context [Nat.leb ?a ?b] => destruct (Nat.leb_spec a b); cbn [andb] in * end.
Lemma lower_same a b : tolower a = tolower b <-> same_upto_case a b.
Proof.
  unfold same_upto_case. split.
  - intro H. apply (f_equal nat_of_ascii) in H. rewrite !code_lower in H.
    destruct (Nat.eq_dec (nat_of_ascii a) (nat_of_ascii b)) as [E|E]; [left; apply code_inj, E|right].
    cases; lia.
  - intros [->|H]; [reflexivity|]. apply code_inj. rewrite !code_lower. cases; lia.
Qed.
Lemma upper_same a b : toupper a = toupper b <-> same_upto_case a b.
Proof.
  unfold same_upto_case. split.
  - intro H. apply (f_equal nat_of_ascii) in H. rewrite !code_upper in H.
    destruct (Nat.eq_dec (nat_of_ascii a) (nat_of_ascii b)) as [E|E]; [left; apply code_inj, E|right].
    cases; lia.
  - intros [->|H]; [reflexivity|]. apply code_inj. rewrite !code_upper. cases; lia.
Qed.
Lemma map_same (f : ascii -> ascii) : (forall a b, f a = f b <-> same_upto_case a b) ->
  forall s t, map f s = map f t <-> Forall2 same_upto_case s t.
Proof.
  intros H s. induction s as [|a s IH]; intros [|b t]; cbn [map].
  - split; constructor.
  - split; [discriminate|]. intro C. inversion C.
  - split; [discriminate|]. intro C. inversion C.
  - split.
    + intro E. injection E as E1 E2. constructor; [apply H, E1|apply IH, E2].
    + intro C. inversion C; subst. f_equal; [apply H|apply IH]; assumption.
Qed.

(** Two names have the same lower (upper) case form exactly when they have the same length and agree
    letter by letter up to case; in particular conversion keeps the length and is idempotent. *)
Theorem case_insensitive : forall s t,
  (lowerCaseString s = lowerCaseString t <-> Forall2 same_upto_case s t) /\
  (upperCaseString s = upperCaseString t <-> Forall2 same_upto_case s t).
Proof. intros s t. split; apply map_same; [apply lower_same|apply upper_same]. Qed.
Print Assumptions case_insensitive.

(** Conversion keeps the length and only changes the case of letters; no letter of the other case is
    left. *)
Theorem case_conversion : forall s,
  Forall2 same_upto_case s (lowerCaseString s) /\ Forall2 same_upto_case s (upperCaseString s) /\
  Forall (fun c => ~ (65 <= nat_of_ascii c <= 90)%nat) (lowerCaseString s) /\
  Forall (fun c => ~ (97 <= nat_of_ascii c <= 122)%nat) (upperCaseString s) /\
  lowerCaseString (lowerCaseString s) = lowerCaseString s /\
  upperCaseString (upperCaseString s) = upperCaseString s /\
  length (lowerCaseString s) = length s /\ length (upperCaseString s) = length s.
Proof.
  intro s.
  assert (IL : forall c, tolower (tolower c) = tolower c).
  { intro c. apply code_inj. rewrite !code_lower. cases; lia. }
  assert (IU : forall c, toupper (toupper c) = toupper c).
  { intro c. apply code_inj. rewrite !code_upper. cases; lia. }
  assert (EL : lowerCaseString (lowerCaseString s) = lowerCaseString s).
  { unfold lowerCaseString. rewrite map_map. apply map_ext. exact IL. }
  assert (EU : upperCaseString (upperCaseString s) = upperCaseString s).
  { unfold upperCaseString. rewrite map_map. apply map_ext. exact IU. }
  split; [apply (proj1 (case_insensitive _ _)); symmetry; exact EL|].
  split; [apply (proj2 (case_insensitive _ _)); symmetry; exact EU|].
  split; [|split; [|split; [exact EL|split; [exact EU|split; apply map_length]]]].
  - apply Forall_map, Forall_forall. intros c _. rewrite code_lower. cases; lia.
  - apply Forall_map, Forall_forall. intros c _. rewrite code_upper. cases; lia.
Qed.
Print Assumptions case_conversion.

(** Names agree in the underscore-free form exactly when they agree up to case once underscores are
    dropped. *)
Definition drop_underscores (s : text) : text := filter (fun c => negb (Ascii.eqb c "_"%char)) s.

Lemma filter_upper s : upperCaseStringNoUnderscore s = upperCaseString (drop_underscores s).
Proof.
  unfold upperCaseStringNoUnderscore, upperCaseString, drop_underscores.
  induction s as [|c s IH]; [reflexivity|]. cbn [map filter].
  assert (E : remove_underscore (toupper c) = Ascii.eqb c "_"%char).
  { unfold remove_underscore. destruct (Ascii.eqb_spec c "_"%char) as [->|N]; [reflexivity|].
    apply Ascii.eqb_neq. intro C. apply N, code_inj. apply (f_equal nat_of_ascii) in C. rewrite code_upper in C.
    change (nat_of_ascii "_"%char) with 95%nat in *. cases; lia. }
  rewrite E. destruct (Ascii.eqb c "_"%char); cbn [negb map]; [exact IH|]. rewrite IH. reflexivity.
Qed.

Theorem underscore_insensitive : forall s t,
  (upperCaseStringNoUnderscore s = upperCaseStringNoUnderscore t <->
   Forall2 same_upto_case (drop_underscores s) (drop_underscores t)) /\
  ~ In "_"%char (upperCaseStringNoUnderscore s).
Proof.
  intros s t. split; [rewrite !filter_upper; apply case_insensitive|].
  unfold upperCaseStringNoUnderscore. rewrite filter_In. intros [_ H]. discriminate.
Qed.
Print Assumptions underscore_insensitive.

Theorem vector_conversion : forall v, length (lowerCaseStringVector v) = length v /\
  forall i, nth i (lowerCaseStringVector v) [] = lowerCaseString (nth i v []).
Proof.
  intro v. split; [apply map_length|]. intro i. apply (map_nth lowerCaseString v []).
Qed.
Print Assumptions vector_conversion.

Example case_example :
  upperCaseStringNoUnderscore (txt "disj_Terms") = txt "DISJTERMS" /\
  upperCaseStringNoUnderscore (txt "disj_Terms") = upperCaseStringNoUnderscore (txt "DISJ_TERMS_") /\
  lowerCaseString (txt "Cut_Limit2") = txt "cut_limit2".
Proof. vm_compute. repeat split. Qed.
