(** C86: printed vectors, matrices and statistics can be read back. *)
From Coq Require Import String Sorted.
From Verif Require Import Prelude Model.Tolerance Model.TextUtil Model.Names Spec.TextSpec Spec.NameSpec Model.Report Spec.ReportSpec Model.PrintVec Spec.VecSpec Proofs.ToleranceP Proofs.NamesP.
From Coq Require Import Lqa.
#[local] Open Scope Q_scope.
#[local] Open Scope list_scope.

Lemma number_no_char c t w : number t w -> ~ digitp c -> ~ In c (txt " -.e+") -> ~ In c t.
Proof.
  intros (sg & man & ex & m & e & -> & M & E & S) D N H. assert (N' : forall x, In x (txt " -.e+") -> c <> x) by (intros x X ->; contradiction).
  apply in_app_or in H. destruct H as [H|H].
  - destruct S as [[[-> | ->] _] | [-> _]]; [destruct H| |]; destruct H as [H|[]]; apply (N' c); try (rewrite <- H; cbn; tauto); auto.
  - apply in_app_or in H. destruct H as [H|H].
    + destruct M as [(z & U & _) | (ip & fp & i & f & -> & U & U' & _)]; [exact (unsigned_no_char _ _ _ U D H)|].
      apply in_app_or in H. destruct H as [H|[H|H]]; [exact (unsigned_no_char _ _ _ U D H)|apply (N' "."%char); [cbn; tauto|auto]|exact (unsigned_no_char _ _ _ U' D H)].
    + destruct E as [[-> _] | [(u & -> & U) | (u & w' & -> & U & _)]]; [exact H| |];
        (apply in_app_or in H; destruct H as [H|H]; [|exact (unsigned_no_char _ _ _ U D H)]);
        cbn in H; apply N; cbn; intuition.
Qed.
Lemma int_no_char c z : ~ digitp c -> c <> "-"%char -> ~ In c (int_text z).
Proof. exact (signed_no_char c _ z (int_text_spec z)). Qed.
Ltac nodigit := unfold digitp; cbn; lia.

Lemma outside_skip pre rest : ~ In "("%char pre -> pairs_at Outside (pre ++ rest) = pairs_at Outside rest.
Proof.
  induction pre as [|c pre IH]; intro N; [reflexivity|]. cbn [app pairs_at]. destruct (Ascii.eqb c "("%char) eqn:E; [|apply IH; intro X; apply N; right; exact X].
  apply Ascii.eqb_eq in E. subst c. exfalso. apply N. left. reflexivity.
Qed.
Lemma first_skip a cur rest : ~ In ","%char a -> ~ In " "%char a -> pairs_at (InFirst cur) (a ++ rest) = pairs_at (InFirst (cur ++ a)) rest.
Proof.
  revert cur. induction a as [|c a IH]; intros cur N1 N2; [rewrite app_nil_r; reflexivity|]. cbn [app pairs_at].
  destruct (Ascii.eqb c ","%char) eqn:E1; [apply Ascii.eqb_eq in E1; subst c; exfalso; apply N1; left; reflexivity|].
  destruct (Ascii.eqb c " "%char) eqn:E2; [apply Ascii.eqb_eq in E2; subst c; exfalso; apply N2; left; reflexivity|].
  rewrite IH; [rewrite <- app_assoc; reflexivity| |]; intro X; [apply N1|apply N2]; right; exact X.
Qed.
Lemma second_skip f a cur rest : ~ In ")"%char a -> ~ In " "%char a -> pairs_at (InSecond f cur) (a ++ rest) = pairs_at (InSecond f (cur ++ a)) rest.
Proof.
  revert cur. induction a as [|c a IH]; intros cur N1 N2; [rewrite app_nil_r; reflexivity|]. cbn [app pairs_at].
  destruct (Ascii.eqb c ")"%char) eqn:E1; [apply Ascii.eqb_eq in E1; subst c; exfalso; apply N1; left; reflexivity|].
  destruct (Ascii.eqb c " "%char) eqn:E2; [apply Ascii.eqb_eq in E2; subst c; exfalso; apply N2; left; reflexivity|].
  rewrite IH; [rewrite <- app_assoc; reflexivity| |]; intro X; [apply N1|apply N2]; right; exact X.
Qed.
Lemma pair_read i v rest : ~ In ")"%char v -> ~ In " "%char v -> pairs_at Outside (pair_text i v ++ rest) = (int_text i, v) :: pairs_at Outside rest.
Proof.
  intros N1 N2. unfold pair_text. change (txt "(") with ["("%char]. change (txt ")") with [")"%char]. change (txt ", ") with [","%char; " "%char].
  rewrite <- !app_assoc. cbn [app].
  cbn [pairs_at]. change (Ascii.eqb "("%char "("%char) with true. cbn iota.
  rewrite first_skip by (apply int_no_char; [nodigit|discriminate]). cbn [app pairs_at].
  change (Ascii.eqb ","%char ","%char) with true. change (Ascii.eqb " "%char ")"%char) with false. change (Ascii.eqb " "%char " "%char) with true. cbn iota.
  rewrite second_skip by assumption. cbn [app pairs_at]. change (Ascii.eqb ")"%char ")"%char) with true. cbn iota. reflexivity.
Qed.

Definition nl : ascii := ascii_of_nat 10.
Lemma lines_front t r : ~ In nl t -> lines (t ++ nl :: r) = t :: lines r.
Proof.
  induction t as [|a t IH]; intro N; cbn [app lines]; [reflexivity|].
  destruct (Ascii.eqb a (ascii_of_nat 10)) eqn:E; [apply Ascii.eqb_eq in E; exfalso; apply N; left; exact E|].
  rewrite IH by (intro X; apply N; right; exact X). reflexivity.
Qed.
Lemma lines_of_list ls : Forall (fun t => ~ In nl t) ls -> lines_of (concat (map (fun t => t ++ NL) ls)) = ls.
Proof.
  intro F. assert (G : lines (concat (map (fun t => t ++ NL) ls)) = ls ++ [[]]).
  { induction F as [|t ls N F IH]; [reflexivity|]. cbn [map concat]. rewrite <- app_assoc.
    exact (eq_trans (lines_front t (concat (map (fun t0 => t0 ++ NL) ls)) N) (f_equal (cons t) IH)). }
  unfold lines_of. rewrite G. apply removelast_last.
Qed.

Section Six.
  Variable pg : Q -> text.
  Lemma six_clean v : prints_six pg v -> ~ In ")"%char (pg v) /\ ~ In " "%char (pg v) /\ ~ In nl (pg v) /\ ~ In "("%char (pg v).
  Proof using.
    intros ((w & W & _) & B). split; [|split; [exact B|split]]; apply (number_no_char _ _ w W); try nodigit; cbn; intuition discriminate.
  Qed.
  Lemma sparse_pairs b vec : forall k, Forall (fun iv => prints_six pg (snd iv)) vec -> forall rest, ~ In "("%char rest ->
    pairs_at Outside (sparse_from pg b k vec ++ rest) = map (fun iv => (int_text (Z.of_nat (fst iv)), pg (snd iv))) vec.
  Proof using.
    induction vec as [|iv vec IH]; intros k F rest R; cbn [sparse_from map].
    - cbn [app]. rewrite <- (app_nil_r rest). rewrite outside_skip by exact R. reflexivity.
    - inversion F as [|? ? F1 F2]; subst. destruct (six_clean _ F1) as (C1 & C2 & _). rewrite <- !app_assoc. rewrite outside_skip.
      + rewrite pair_read by assumption. f_equal. apply (IH (k + 1)%nat F2 rest R).
      + destruct b; [cbn; intuition discriminate|]. destruct (Nat.ltb 0 k); cbn; intuition discriminate.
  Qed.
  Lemma told_list vec : Forall (fun iv => prints_six pg (snd iv)) vec ->
    Forall2 (fun p iv => signed (fst p) (Z.of_nat (fst iv)) /\ six_digits (snd iv) (snd p)) (map (fun iv : nat * Q => (int_text (Z.of_nat (fst iv)), pg (snd iv))) vec) vec.
  Proof using. induction 1 as [|iv vec P F IH]; [constructor|]. cbn [map]. constructor; [split; [apply int_text_spec|exact (proj1 P)]|exact IH]. Qed.
  Lemma sparse_told vec b pre : ~ In "("%char pre -> Forall (fun iv => prints_six pg (snd iv)) vec -> tells six_digits (pre ++ sparse_from pg b 0 vec ++ NL) vec.
  Proof using.
    intros N F. unfold tells, pairs_in. rewrite outside_skip by exact N. rewrite (sparse_pairs b vec 0 F NL) by (cbn; intuition discriminate). apply told_list, F.
  Qed.
  Lemma sparse_told_no_nl vec pre : ~ In "("%char pre -> Forall (fun iv => prints_six pg (snd iv)) vec -> tells six_digits (pre ++ sparse_from pg false 0 vec) vec.
  Proof using.
    intros N F. unfold tells, pairs_in. rewrite outside_skip by exact N. rewrite <- (app_nil_r (sparse_from pg false 0 vec)). rewrite (sparse_pairs false vec 0 F []) by (intros []). apply told_list, F.
  Qed.
  Lemma pair_no_nl i v : ~ In nl v -> ~ In nl (pair_text i v).
  Proof using.
    intros N H. unfold pair_text in H. apply in_app_or in H. destruct H as [H|H]; [cbn in H; intuition discriminate|].
    apply in_app_or in H. destruct H as [H|H]; [apply (int_no_char nl i); [nodigit|discriminate|exact H]|].
    apply in_app_or in H. destruct H as [H|H]; [cbn in H; intuition discriminate|].
    apply in_app_or in H. destruct H as [H|H]; [exact (N H)|cbn in H; intuition discriminate].
  Qed.
  Lemma sparse_no_nl vec : forall k, Forall (fun iv => prints_six pg (snd iv)) vec -> ~ In nl (sparse_from pg false k vec).
  Proof using.
    induction vec as [|iv vec IH]; intros k F H; cbn [sparse_from] in H; [exact H|]. inversion F as [|? ? F1 F2]; subst.
    apply in_app_or in H. destruct H as [H|H]; [destruct (Nat.ltb 0 k); cbn in H; intuition discriminate|].
    apply in_app_or in H. destruct H as [H|H]; [revert H; apply pair_no_nl, (six_clean _ F1)|exact (IH _ F2 H)].
  Qed.
  Lemma sparse_lines vec : forall k head, Forall (fun iv => prints_six pg (snd iv)) vec -> ~ In nl head ->
    head ++ sparse_from pg true k vec ++ NL = concat (map (fun t => t ++ NL) (head :: map (fun iv => TAB ++ pair_text (Z.of_nat (fst iv)) (pg (snd iv))) vec)).
  Proof using.
    induction vec as [|iv vec IH]; intros k head F N; cbn [sparse_from].
    - cbn [app map concat]. rewrite app_nil_r. reflexivity.
    - inversion F as [|? ? F1 F2]; subst. cbn [map concat]. rewrite <- !app_assoc. f_equal. f_equal.
      rewrite (app_assoc TAB). rewrite (IH (k + 1)%nat (TAB ++ pair_text (Z.of_nat (fst iv)) (pg (snd iv))) F2).
      + cbn [map concat]. rewrite <- !app_assoc. reflexivity.
      + intro H. apply in_app_or in H. destruct H as [H|H]; [cbn in H; intuition discriminate|revert H; apply pair_no_nl, (six_clean _ F1)].
  Qed.
End Six.

(** A packed vector: the pairs printed are its entries in order, indices exact and values to six digits; on one line, or on a first line with the number of
    elements and one line per entry. *)
Theorem vector_told : forall pg vec, Forall (fun iv => prints_six pg (snd iv)) vec ->
  tells six_digits (printVector pg vec false) vec /\ List.length (lines_of (printVector pg vec false)) = 1%nat /\
  tells six_digits (printVector pg vec true) vec /\
  exists head rest n, lines_of (printVector pg vec true) = head :: rest /\ head = txt "Num elements is " ++ n ++ txt "." /\ signed n (Z.of_nat (List.length vec)) /\
    Forall2 (fun line iv => tells six_digits line [iv]) rest vec.
Proof.
  intros pg vec F. unfold printVector. split; [|split; [|split]].
  - apply (sparse_told pg vec false []); [intros []|exact F].
  - cbn [app]. assert (F1 : Forall (fun t : text => ~ In nl t) [sparse_from pg false 0 vec]) by (constructor; [apply sparse_no_nl, F|constructor]).
    pose proof (lines_of_list [sparse_from pg false 0 vec] F1) as L.
    cbn [map concat] in L. rewrite app_nil_r in L. rewrite L. reflexivity.
  - apply (sparse_told pg vec true); [|exact F]. intro H. apply in_app_or in H. destruct H as [H|H]; [cbn in H; intuition discriminate|].
    apply in_app_or in H. destruct H as [H|H]; [revert H; apply int_no_char; [nodigit|discriminate]|cbn in H; intuition discriminate].
  - set (head := txt "Num elements is " ++ int_text (Z.of_nat (List.length vec)) ++ txt ".").
    assert (N : ~ In nl head).
    { intro H. apply in_app_or in H. destruct H as [H|H]; [cbn in H; intuition discriminate|].
      apply in_app_or in H. destruct H as [H|H]; [revert H; apply int_no_char; [nodigit|discriminate]|cbn in H; intuition discriminate]. }
    rewrite (sparse_lines pg vec 0 head F N). rewrite lines_of_list.
    + exists head, (map (fun iv : nat * Q => TAB ++ pair_text (Z.of_nat (fst iv)) (pg (snd iv))) vec), (int_text (Z.of_nat (List.length vec))).
      split; [reflexivity|]. split; [reflexivity|]. split; [apply int_text_spec|].
      clear N head. induction F as [|iv vec P F IH]; [constructor|]. cbn [map]. constructor; [|exact IH].
      destruct (six_clean pg _ P) as (C1 & C2 & _). unfold tells, pairs_in. rewrite outside_skip by (cbn; intuition discriminate).
      rewrite <- (app_nil_r (pair_text _ _)). rewrite pair_read by assumption. constructor; [split; [apply int_text_spec|exact (proj1 P)]|constructor].
    + constructor; [exact N|]. rewrite Forall_forall in F |- *. intros t H. apply in_map_iff in H. destruct H as (iv & <- & H). intro X.
      apply in_app_or in X. destruct X as [X|X]; [cbn in X; intuition discriminate|revert X; apply pair_no_nl, (six_clean pg _ (F iv H))].
Qed.
Print Assumptions vector_told.

(** Several vectors on one line each: line [k] tells vector [k]. *)
Theorem vectors_told : forall pg vecs, Forall (Forall (fun iv => prints_six pg (snd iv))) vecs ->
  Forall2 (tells six_digits) (lines_of (printVectors pg vecs false)) vecs.
Proof.
  intros pg vecs F. unfold printVectors.
  replace (concat (map (fun vec => printVector pg vec false) vecs)) with (concat (map (fun t => t ++ NL) (map (sparse_from pg false 0) vecs))) by (rewrite map_map; reflexivity).
  rewrite lines_of_list.
  - induction F as [|vec vecs P F IH]; [constructor|]. cbn [map]. constructor; [|exact IH]. apply (sparse_told_no_nl pg vec []); [intros []|exact P].
  - rewrite Forall_forall in F |- *. intros t H. apply in_map_iff in H. destruct H as (vec & <- & H). apply sparse_no_nl, F, H.
Qed.
Print Assumptions vectors_told.

(** ** Arrays. *)
(** The entries shown: all, or those of absolute value at least 1e-7. *)
Definition shown_entries (sparse_mode : bool) (vec : list Q) : packed :=
  filter (fun iv => negb (sparse_mode && Qltb (Qabs (snd iv)) EPS7)) (combine (seq 0 (List.length vec)) vec).
Lemma whole_iff v : Qeq_bool (Qabs (v - inject_Z (Qfloor v))) 0 = true <-> v == inject_Z (Qfloor v).
Proof.
  rewrite Qeq_bool_iff. split; intro H; [|rewrite H at 1; setoid_replace (inject_Z (Qfloor v) - inject_Z (Qfloor v)) with 0 by ring; reflexivity].
  assert (A : v - inject_Z (Qfloor v) == 0); [|lra]. revert H. apply Qabs_case; intros; lra.
Qed.
Lemma whole_unique v z : v == inject_Z z -> Qfloor v = z.
Proof. intro E. rewrite E. apply Qfloor_Z. Qed.
Definition fits (iv : nat * Q) : Prop := forall z, snd iv == inject_Z z -> (-2147483648 <= z <= 2147483647)%Z.
Lemma value_some pg i v : (exists t, dense_value pg i v = Some t) <-> fits (i, v).
Proof.
  unfold dense_value, fits. cbn [snd]. destruct (Qeq_bool (Qabs (v - inject_Z (Qfloor v))) 0) eqn:E; cbn [negb].
  - apply whole_iff in E. split.
    + intros (t & H) z Z. rewrite <- (whole_unique v z Z). destruct (Z.ltb_spec (Qfloor v) (-2147483648)); [discriminate|]. destruct (Z.ltb_spec 2147483647 (Qfloor v)); [discriminate|]. lia.
    + intro H. specialize (H _ E). destruct (Z.ltb_spec (Qfloor v) (-2147483648)); [lia|]. destruct (Z.ltb_spec 2147483647 (Qfloor v)); [lia|]. eexists. reflexivity.
  - split; [|eexists; reflexivity]. intros _ z Z. exfalso. assert (X : v == inject_Z (Qfloor v)) by (rewrite (whole_unique v z Z); exact Z). apply whole_iff in X. congruence.
Qed.
Lemma value_read pg i v t rest : dense_value pg i v = Some t -> prints_six pg v ->
  exists u, pairs_at Outside (t ++ rest) = (int_text (Z.of_nat i), u) :: pairs_at Outside rest /\ exact_or_six v u.
Proof.
  unfold dense_value. intros H P. destruct (Qeq_bool (Qabs (v - inject_Z (Qfloor v))) 0) eqn:E; cbn [negb] in H.
  - destruct (_ || _); [discriminate|]. assert (H' : t = TAB ++ pair_text (Z.of_nat i) (int_text (Qfloor v))) by congruence. clear H. subst t. exists (int_text (Qfloor v)). rewrite <- app_assoc. rewrite outside_skip by (cbn; intuition discriminate). split.
    + apply pair_read; apply int_no_char; try nodigit; discriminate.
    + apply whole_iff in E. split; [intros z Z; rewrite (whole_unique v z Z); apply int_text_spec|]. intro N. exfalso. apply N. exists (Qfloor v). exact E.
  - assert (H' : t = TAB ++ pair_text (Z.of_nat i) (pg v)) by congruence. clear H. subst t. exists (pg v). rewrite <- app_assoc. rewrite outside_skip by (cbn; intuition discriminate). destruct (six_clean pg v P) as (C1 & C2 & _). split; [apply pair_read; assumption|].
    split; [|intros _; exact (proj1 P)]. intros z Z. exfalso. assert (X : v == inject_Z (Qfloor v)) by (rewrite (whole_unique v z Z); exact Z). apply whole_iff in X. congruence.
Qed.
Lemma dense_general pg b sp vec : forall i,
  ((exists t, dense_from pg b sp i vec = Some t) <-> Forall fits (filter (fun iv => negb (sp && Qltb (Qabs (snd iv)) EPS7)) (combine (seq i (List.length vec)) vec))) /\
  (forall t, dense_from pg b sp i vec = Some t -> Forall (prints_six pg) vec -> forall rest, ~ In "("%char rest ->
     Forall2 (fun p iv => signed (fst p) (Z.of_nat (fst iv)) /\ exact_or_six (snd iv) (snd p)) (pairs_at Outside (t ++ rest))
       (filter (fun iv => negb (sp && Qltb (Qabs (snd iv)) EPS7)) (combine (seq i (List.length vec)) vec))).
Proof.
  induction vec as [|v vec IH]; intro i.
  - cbn [dense_from List.length seq combine filter]. split; [split; [constructor|eexists; reflexivity]|]. intros t H _ rest R. injection H as <-. cbn [app].
    rewrite <- (app_nil_r rest), outside_skip by exact R. constructor.
  - cbn [dense_from List.length seq combine filter snd]. replace (i + 1)%nat with (Datatypes.S i) by lia. destruct (IH (Datatypes.S i)) as [I1 I2].
    destruct (sp && Qltb (Qabs v) EPS7) eqn:E; cbn [negb].
    + split; [exact I1|]. intros t H F rest R. inversion F; subst. apply I2; assumption.
    + split.
      * split.
        -- intros (t & H). destruct (dense_value pg i v) as [tv|] eqn:V; [|discriminate]. destruct (dense_from pg b sp (Datatypes.S i) vec) as [u|]; [|discriminate].
           constructor; [apply (value_some pg i v); exists tv; exact V|apply I1; exists u; reflexivity].
        -- intro H. inversion H as [|? ? H1 H2]; subst. apply (value_some pg i v) in H1. destruct H1 as (tv & ->). apply I1 in H2. destruct H2 as (u & ->). eexists. reflexivity.
      * intros t H F rest R. inversion F as [|? ? F1 F2]; subst. destruct (dense_value pg i v) as [tv|] eqn:V; [|discriminate]. destruct (dense_from pg b sp (Datatypes.S i) vec) as [u|] eqn:U; [|discriminate].
        injection H as <-. rewrite <- !app_assoc. rewrite outside_skip by (destruct b; [cbn; intuition discriminate|]; destruct (Nat.ltb 0 i); cbn; intuition discriminate).
        destruct (value_read pg i v tv (u ++ rest) V F1) as (x & -> & X). constructor; [split; [apply int_text_spec|exact X]|]. apply I2; [reflexivity|exact F2|exact R].
Qed.

(** An array: printing it is defined iff every whole number among the entries shown is an int, and then the pairs printed are those entries in order,
    whole numbers exactly and others to six digits. *)
Theorem array_told : forall pg vec use_newline sparse_mode,
  ((exists t, printVector_dense pg vec use_newline sparse_mode = Some t) <->
   (forall i v z, In (i, v) (shown_entries sparse_mode vec) -> v == inject_Z z -> (-2147483648 <= z <= 2147483647)%Z)) /\
  (forall t, printVector_dense pg vec use_newline sparse_mode = Some t -> Forall (prints_six pg) vec -> tells exact_or_six t (shown_entries sparse_mode vec)) /\
  (forall i v, In (i, v) (shown_entries sparse_mode vec) <-> nth_error vec i = Some v /\ (sparse_mode = true -> EPS7 <= Qabs v)).
Proof.
  intros pg vec b sp. destruct (dense_general pg b sp vec 0) as [G1 G2]. unfold printVector_dense. split; [|split].
  - fold (shown_entries sp vec) in G1. split.
    + intros (t & H). destruct (dense_from pg b sp 0 vec) as [u|]; [|discriminate]. assert (X : Forall fits (shown_entries sp vec)) by (apply G1; exists u; reflexivity).
      rewrite Forall_forall in X. intros i v z Hi Z. exact (X (i, v) Hi z Z).
    + intro H. assert (X : Forall fits (shown_entries sp vec)) by (apply Forall_forall; intros (i, v) Hi z Z; exact (H i v z Hi Z)). apply G1 in X. destruct X as (u & ->). eexists. reflexivity.
  - intros t H F. destruct (dense_from pg b sp 0 vec) as [u|] eqn:E; [|discriminate]. injection H as <-. unfold tells, pairs_in, shown_entries. apply G2; [reflexivity|exact F|cbn; intuition discriminate].
  - intros i v. unfold shown_entries. rewrite filter_In. cbn [snd].
    assert (C : forall (l : list Q) k, In (i, v) (combine (seq k (List.length l)) l) <-> (k <= i)%nat /\ nth_error l (i - k) = Some v).
    { induction l as [|x l IHl]; intro k; cbn [List.length seq combine]; [split; [intros []|intros [_ X]; destruct (i - k)%nat; discriminate]|].
      cbn [In]. rewrite IHl. split.
      - intros [X|[L X]]; [injection X as -> ->; split; [lia|rewrite Nat.sub_diag; reflexivity]|]. split; [lia|]. replace (i - k)%nat with (Datatypes.S (i - Datatypes.S k)) by lia. exact X.
      - intros [L X]. destruct (Nat.eq_dec k i) as [->|N]; [left; rewrite Nat.sub_diag in X; injection X as ->; reflexivity|]. right. split; [lia|].
        replace (i - k)%nat with (Datatypes.S (i - Datatypes.S k)) in X by lia. exact X. }
    rewrite C, Nat.sub_0_r. split.
    + intros [[_ X] Y]. split; [exact X|]. intros ->. cbn [andb] in Y. destruct (Qltb_reflect (Qabs v) EPS7); [discriminate|]. apply Qnot_lt_le. assumption.
    + intros [X Y]. split; [split; [lia|exact X]|]. destruct sp; [|reflexivity]. cbn [andb]. specialize (Y eq_refl). destruct (Qltb_reflect (Qabs v) EPS7) as [L|L]; [exfalso; lra|reflexivity].
Qed.
Print Assumptions array_told.

(** Refuted: "any array can be printed": one with an infinite bound (the largest double, a whole number) cannot. *)
Theorem infinite_refuted : forall pg vec use_newline sparse_mode v, In v vec -> v == DBL_MAX \/ v == - DBL_MAX -> printVector_dense pg vec use_newline sparse_mode = None.
Proof.
  intros pg vec b sp v Hv E. destruct (printVector_dense pg vec b sp) as [t|] eqn:P; [|reflexivity]. exfalso.
  destruct (array_told pg vec b sp) as (A & _ & C). assert (B : forall i v z, In (i, v) (shown_entries sp vec) -> v == inject_Z z -> (-2147483648 <= z <= 2147483647)%Z) by (apply A; exists t; exact P).
  apply In_nth_error in Hv. destruct Hv as (i & Hi).
  assert (S : In (i, v) (shown_entries sp vec)) by (apply C; split; [exact Hi|]; intros _; destruct E as [E|E]; rewrite E; vm_compute; discriminate).
  assert (W : DBL_MAX == inject_Z (Qfloor DBL_MAX)) by (vm_compute; reflexivity).
  destruct E as [E|E].
  - specialize (B i v (Qfloor DBL_MAX) S). rewrite E in B. specialize (B W). destruct B as [_ B]. revert B. vm_compute. intro X. apply X. reflexivity.
  - specialize (B i v (- Qfloor DBL_MAX)%Z S). rewrite E in B. rewrite inject_Z_opp in B. specialize (B ltac:(rewrite W at 1; reflexivity)). destruct B as [B _]. revert B. vm_compute. intro X. apply X. reflexivity.
Qed.
Print Assumptions infinite_refuted.
(** Refuted: "separators stand between entries only": if the first entries are not shown the line starts with one. *)
Theorem separator_refuted : forall pg v, EPS7 <= Qabs v -> ~ whole v ->
  printVector_dense pg [0; v] false true = Some (txt ", " ++ TAB ++ pair_text 1 (pg v) ++ NL).
Proof.
  intros pg v H N. unfold printVector_dense. cbn [dense_from andb]. change (Qltb (Qabs 0) EPS7) with true. cbn iota.
  destruct (Qltb_reflect (Qabs v) EPS7) as [L|L]; [exfalso; lra|]. unfold dense_value.
  destruct (Qeq_bool (Qabs (v - inject_Z (Qfloor v))) 0) eqn:E; [exfalso; apply N; exists (Qfloor v); apply whole_iff; exact E|]. cbn [negb option_map]. rewrite app_nil_r. reflexivity.
Qed.
Print Assumptions separator_refuted.

(** ** Matrices. *)
Lemma in_combine_seq {A} (l : list A) : forall k i x, In (i, x) (combine (seq k (List.length l)) l) <-> (k <= i)%nat /\ nth_error l (i - k) = Some x.
Proof.
  induction l as [|y l IHl]; intros k i x; cbn [List.length seq combine]; [split; [intros []|intros [_ X]; destruct (i - k)%nat; discriminate]|].
  cbn [In]. rewrite IHl. split.
  - intros [X|[L X]]; [injection X as -> ->; split; [lia|rewrite Nat.sub_diag; reflexivity]|]. split; [lia|]. replace (i - k)%nat with (Datatypes.S (i - Datatypes.S k)) by lia. exact X.
  - intros [L X]. destruct (Nat.eq_dec k i) as [->|N]; [left; rewrite Nat.sub_diag in X; injection X as ->; reflexivity|]. right. split; [lia|].
    replace (i - k)%nat with (Datatypes.S (i - Datatypes.S k)) in X by lia. exact X.
Qed.
Lemma reversed_in m r c v : In (c, v) (reversed m r) <-> exists vec, nth_error (pm_major m) c = Some vec /\ In (r, v) vec.
Proof.
  unfold reversed. rewrite in_flat_map. split.
  - intros ((c', vec) & H & X). apply in_combine_seq in H. destruct H as [_ H]. rewrite Nat.sub_0_r in H. cbn [fst snd] in X. apply in_map_iff in X.
    destruct X as ((r', v') & Y & X). apply filter_In in X. destruct X as [X E]. cbn [fst snd] in *. apply Nat.eqb_eq in E. injection Y as -> ->. subst r'. exists vec. auto.
  - intros (vec & H & X). exists (c, vec). split; [apply in_combine_seq; rewrite Nat.sub_0_r; split; [lia|exact H]|]. cbn [fst snd]. apply in_map_iff. exists (r, v). split; [reflexivity|].
    apply filter_In. split; [exact X|]. cbn [fst]. apply Nat.eqb_refl.
Qed.
Definition rev_from (r : nat) (l : list packed) (k : nat) : packed :=
  flat_map (fun cv => map (fun iv => (fst cv, snd iv)) (filter (fun iv => Nat.eqb (fst iv) r) (snd cv))) (combine (seq k (List.length l)) l).
Lemma rev_from_sorted r l : forall k, Sorted le (map fst (rev_from r l k)) /\ forall x, In x (map fst (rev_from r l k)) -> (k <= x)%nat.
Proof.
  induction l as [|vec l IH]; intro k; [split; [constructor|intros ? []]|]. destruct (IH (Datatypes.S k)) as [I1 I2].
  assert (E : map fst (rev_from r (vec :: l) k) = repeat k (List.length (filter (fun iv => Nat.eqb (fst iv) r) vec)) ++ map fst (rev_from r l (Datatypes.S k))).
  { unfold rev_from. cbn [List.length seq combine flat_map]. rewrite map_app. f_equal. rewrite map_map. cbn [fst snd].
    induction (filter (fun iv : nat * Q => (fst iv =? r)%nat) vec) as [|y q IHq]; [reflexivity|]. cbn [map List.length repeat]. f_equal. exact IHq. }
  rewrite E. generalize (map fst (rev_from r l (Datatypes.S k))) I1 I2. generalize (List.length (filter (fun iv : nat * Q => (fst iv =? r)%nat) vec)). clear. intros n rest I1 I2. split.
  - induction n as [|n IHn]; cbn [repeat app]; [exact I1|]. constructor; [exact IHn|]. destruct n as [|n]; cbn [repeat app]; [|constructor; lia].
    destruct rest as [|y rest']; constructor. specialize (I2 y (or_introl eq_refl)). lia.
  - intros x H. apply in_app_or in H. destruct H as [H|H]; [apply repeat_spec in H; lia|]. specialize (I2 x H). lia.
Qed.
Lemma reversed_sorted m r : Sorted le (map fst (reversed m r)).
Proof. exact (proj1 (rev_from_sorted r (pm_major m) 0)). Qed.
(** A matrix, stored by rows or by columns: as many lines as rows; line [r] begins with "Row r: " and tells exactly the elements of row [r]
    (by ascending column if the matrix is stored by columns). *)
Theorem matrix_told : forall pg m, (forall r c v, element m r c v -> prints_six pg v) ->
  List.length (lines_of (printMatrix pg m)) = num_rows m /\
  forall r line, nth_error (lines_of (printMatrix pg m)) r = Some line ->
    exists n rest entries, line = txt "Row " ++ n ++ txt ": " ++ rest /\ signed n (Z.of_nat r) /\ tells six_digits line entries /\
      (forall c v, In (c, v) entries <-> element m r c v) /\ (pm_col m = true -> Sorted le (map fst entries)).
Proof.
  intros pg m P.
  assert (RE : forall r vec, nth_error (matrix_rows m) r = Some vec -> (forall c v, In (c, v) vec <-> element m r c v) /\ (pm_col m = true -> Sorted le (map fst vec))).
  { intros r vec H. unfold matrix_rows in H. unfold element. destruct (pm_col m).
    - assert (L : (r < pm_minor m)%nat) by (assert (X : nth_error (map (reversed m) (seq 0 (pm_minor m))) r <> None) by congruence; apply nth_error_Some in X; rewrite map_length, seq_length in X; exact X).
      rewrite nth_error_map in H. rewrite (nth_error_nth' _ 0%nat) in H by (rewrite seq_length; exact L). rewrite seq_nth in H by exact L. cbn [option_map Nat.add] in H. injection H as <-.
      split; [intros c v; apply reversed_in|intros _; apply reversed_sorted].
    - split; [|discriminate]. intros c v. split; [intro X; exists vec; auto|intros (vec' & E & X); congruence]. }
  assert (ROWS : List.length (matrix_rows m) = num_rows m) by (unfold matrix_rows, num_rows; destruct (pm_col m); [rewrite map_length, seq_length; reflexivity|reflexivity]).
  set (row := fun ir : nat * packed => (txt "Row " ++ int_text (Z.of_nat (fst ir)) ++ txt ": ") ++ sparse_from pg false 0 (snd ir)).
  assert (T : printMatrix pg m = concat (map (fun t => t ++ NL) (map row (combine (seq 0 (List.length (matrix_rows m))) (matrix_rows m))))).
  { unfold printMatrix. rewrite map_map. f_equal. apply map_ext. intro ir. unfold row, printVector. cbn [app]. rewrite <- !app_assoc. reflexivity. }
  assert (OK : forall i vec, In (i, vec) (combine (seq 0 (List.length (matrix_rows m))) (matrix_rows m)) -> nth_error (matrix_rows m) i = Some vec /\ Forall (fun iv => prints_six pg (snd iv)) vec).
  { intros i vec H. apply in_combine_seq in H. rewrite Nat.sub_0_r in H. destruct H as [_ H]. split; [exact H|]. apply Forall_forall. intros (c, v) X. cbn [snd]. apply (P i c v). apply (proj1 (RE i vec H)). exact X. }
  rewrite T, lines_of_list.
  - split; [rewrite map_length, combine_length, seq_length, ROWS; lia|]. intros r line H. rewrite nth_error_map in H.
    destruct (nth_error (combine (seq 0 (List.length (matrix_rows m))) (matrix_rows m)) r) as [(i, vec)|] eqn:E; [|discriminate]. injection H as <-.
    assert (I : i = r).
    { clear - E. assert (G : forall (l : list packed) k n, nth_error (combine (seq k (List.length l)) l) n = Some (i, vec) -> i = (k + n)%nat).
      { induction l as [|x l IH]; intros k n H; cbn [List.length seq combine] in H; [destruct n; discriminate|]. destruct n as [|n]; cbn [nth_error] in H; [injection H as -> _; lia|]. rewrite (IH _ _ H). lia. }
      exact (G _ 0%nat r E). }
    subst i. apply nth_error_In in E. destruct (OK r vec E) as [N F]. destruct (RE r vec N) as [R1 R2].
    exists (int_text (Z.of_nat r)), (sparse_from pg false 0 vec), vec. unfold row. cbn [fst snd]. split; [rewrite <- !app_assoc; reflexivity|]. split; [apply int_text_spec|].
    split; [|split; [exact R1|exact R2]]. apply sparse_told_no_nl; [|exact F]. intro H. apply in_app_or in H. destruct H as [H|H]; [cbn in H; intuition discriminate|].
    apply in_app_or in H. destruct H as [H|H]; [revert H; apply int_no_char; [nodigit|discriminate]|cbn in H; intuition discriminate].
  - apply Forall_forall. intros t H. apply in_map_iff in H. destruct H as ((i, vec) & <- & H). destruct (OK i vec H) as [_ F]. unfold row. cbn [fst snd]. intro X.
    apply in_app_or in X. destruct X as [X|X]; [|revert X; apply sparse_no_nl, F]. apply in_app_or in X. destruct X as [X|X]; [cbn in X; intuition discriminate|].
    apply in_app_or in X. destruct X as [X|X]; [revert X; apply int_no_char; [nodigit|discriminate]|cbn in X; intuition discriminate].
Qed.
Print Assumptions matrix_told.

(** ** Statistics. *)
Lemma neg_iff v : isNegInfinity v (- DBL_MAX) EPS7 = true <-> v < - DBL_MAX + EPS7.
Proof.
  pose proof EPS7_pos as EP. unfold isNegInfinity. rewrite orb_true_iff, negb_true_iff, Qle_bool_iff. split.
  - intros [H|H]; [lra|]. apply Qnot_le_lt. intro L. assert (X : greaterThanVal v (- DBL_MAX) EPS7 = true) by (apply greaterThanVal_iff; exact L). congruence.
  - intro H. right. destruct (greaterThanVal v (- DBL_MAX) EPS7) eqn:E; [|reflexivity]. apply greaterThanVal_iff in E. exfalso. lra.
Qed.
Lemma pos_iff v : isInfinity v DBL_MAX EPS7 = true <-> DBL_MAX - EPS7 < v.
Proof. apply isInfinity_iff_l, EPS7_pos. Qed.
Lemma shown_ten p10 v : known v \/ DBL_MAX <= v \/ v <= - DBL_MAX -> (known v -> prints_ten p10 v) ->
  ten_digits v (string_10 p10 v) /\ ~ In nl (string_10 p10 v).
Proof.
  intros K P. pose proof EPS7_pos as EP. assert (BIG : 0 < DBL_MAX - EPS7) by reflexivity. unfold string_10, snprintf.
  assert (KN : known v -> - (DBL_MAX - EPS7) <= v /\ v <= DBL_MAX - EPS7) by (intro H; apply Qabs_Qle_condition; exact H).
  destruct (isInfinity v DBL_MAX EPS7) eqn:E1.
  - apply pos_iff in E1. split; [|cbn; intuition discriminate]. split; [intro X; exfalso; specialize (KN X); lra|]. split; [reflexivity|intro X; exfalso; lra].
  - assert (L1 : ~ DBL_MAX - EPS7 < v) by (rewrite <- pos_iff; congruence). destruct (isNegInfinity v (- DBL_MAX) EPS7) eqn:E2.
    + apply neg_iff in E2. split; [|cbn; intuition discriminate]. split; [intro X; exfalso; specialize (KN X); lra|]. split; [intro X; exfalso; lra|reflexivity].
    + assert (L2 : ~ v < - DBL_MAX + EPS7) by (rewrite <- neg_iff; congruence). destruct K as [K|[K|K]]; [|exfalso; lra|exfalso; lra].
      destruct (P K) as ((w & W & B) & L). rewrite firstn_all2 by lia. split; [|apply (number_no_char _ _ w W); [nodigit|cbn; intuition discriminate]].
      split; [intros _; exists w; split; assumption|]. split; intro X; exfalso; lra.
Qed.
(** Statistics, one per line: defined iff there are at least seven; the lines tell the first seven in the order of the enumeration Stat, each after its name. *)
Theorem statistics_told : forall p10 stats printNames,
  ((exists t, printStats p10 stats printNames nl = Some t) <-> (7 <= List.length stats)%nat) /\
  (forall t, printStats p10 stats printNames nl = Some t ->
     (forall v, In v stats -> (known v \/ DBL_MAX <= v \/ v <= - DBL_MAX) /\ (known v -> prints_ten p10 v)) ->
     Forall2 (fun line nv => exists u, line = (if printNames then TAB ++ fst nv ++ txt ": " else []) ++ u /\ ten_digits (snd nv) u) (lines_of t)
       (combine (map txt ["total"; "avg"; "stddev"; "min"; "max"; "num"; "num_nonzero"]%string) stats)).
Proof.
  intros p10 stats b. unfold printStats. change (map txt ["total"; "avg"; "stddev"; "min"; "max"; "num"; "num_nonzero"]%string) with stat_names.
  assert (NN : Forall (fun n => ~ In nl n) stat_names) by (unfold stat_names; cbn [map]; repeat (constructor; [cbn; intuition discriminate|]); constructor).
  change 7%nat with (List.length stat_names). revert stats. induction NN as [|n names N NN IH]; intro stats; cbn [stats_from List.length].
  - split; [split; [lia|eexists; reflexivity]|]. intros t H _. injection H as <-. cbn [combine]. constructor.
  - destruct stats as [|x stats]; cbn [List.length]; [split; [split; [intros (t & H); discriminate|lia]|discriminate]|].
    destruct (IH stats) as [I1 I2]. split.
    + split; [intros (t & H); destruct (stats_from p10 b nl names stats) as [r|] eqn:E; [|discriminate]; apply le_n_S, I1; exists r; reflexivity|].
      intro L. apply le_S_n, I1 in L. destruct L as (r & ->). eexists. reflexivity.
    + intros t H V. destruct (stats_from p10 b nl names stats) as [r|] eqn:E; [|discriminate]. cbn [option_map] in H.
      destruct (V x (or_introl eq_refl)) as [V1 V2]. destruct (shown_ten p10 x V1 V2) as [T T'].
      set (line := (if b then TAB ++ n ++ txt ": " else []) ++ string_10 p10 x).
      assert (Ht : t = line ++ nl :: r) by (unfold line; rewrite <- app_assoc; congruence). subst t.
      assert (NL1 : ~ In nl line).
      { intro X. apply in_app_or in X. destruct X as [X|X]; [|exact (T' X)]. destruct b; [|exact X]. apply in_app_or in X. destruct X as [X|X]; [cbn in X; intuition discriminate|].
        apply in_app_or in X. destruct X as [X|X]; [exact (N X)|cbn in X; intuition discriminate]. }
      assert (LO : lines_of (line ++ nl :: r) = line :: lines_of r).
      { unfold lines_of. rewrite lines_front by exact NL1. cbn [removelast]. destruct (lines r) eqn:Er; [|reflexivity]. exfalso. destruct r as [|a r]; [discriminate|]. cbn [lines] in Er.
        destruct (Ascii.eqb a (ascii_of_nat 10)); [discriminate|]. destruct (lines r); discriminate. }
      rewrite LO. cbn [combine]. constructor; [exists (string_10 p10 x); split; [reflexivity|exact T]|]. apply (I2 r eq_refl). intros v Hv. apply V. right. exact Hv.
Qed.
Print Assumptions statistics_told.

(** Examples: a C library that prints 1.5 and -3. *)
Definition expg (v : Q) : text := if Qeq_bool v (3 # 2) then txt "1.5" else int_text (Qfloor v).
Lemma expg_half : prints_six expg (3 # 2) /\ prints_ten expg (3 # 2).
Proof.
  assert (N : number (txt "1.5") (3 # 2)).
  { exists [], (txt "1.5"), [], (3 # 2), 0%Z. split; [reflexivity|]. split; [|split; [left; auto|left; split; [left; reflexivity|reflexivity]]].
    right. exists (txt "1"), (txt "5"), 1%Z, 5%Z. split; [reflexivity|].
    split; [split; [discriminate|split; [repeat constructor; cbn; lia|reflexivity]]|]. split; [split; [discriminate|split; [repeat constructor; cbn; lia|reflexivity]]|reflexivity]. }
  change (expg (3 # 2)) with (txt "1.5"). split.
  - split; [exists (3 # 2); split; [exact N|vm_compute; discriminate]|]. cbn. intuition discriminate.
  - split; [exists (3 # 2); split; [exact N|vm_compute; discriminate]|]. cbn. lia.
Qed.
Lemma expg_int z : prints_six expg (inject_Z z).
Proof.
  assert (E : expg (inject_Z z) = int_text z).
  { unfold expg. destruct (Qeq_bool (inject_Z z) (3 # 2)) eqn:E; [|rewrite Qfloor_Z; reflexivity]. apply Qeq_bool_iff in E. exfalso. unfold Qeq in E. cbn [Qnum Qden inject_Z] in E. lia. }
  split; [|change (~ In " "%char (expg (inject_Z z))); rewrite E; apply int_no_char; [nodigit|discriminate]].
  exists (inject_Z z). split.
  - rewrite E. destruct (int_text_spec z) as [U|(u & w & -> & U & ->)].
    + exists [], (int_text z), [], (inject_Z z), 0%Z. rewrite app_nil_r. split; [reflexivity|]. split; [left; exists z; split; [exact U|reflexivity]|]. split; [left; auto|]. left. split; [left; reflexivity|].
      change (power 0) with (inject_Z 1). rewrite <- inject_Z_mult. rewrite Z.mul_1_r. reflexivity.
    + exists (txt "-"), u, [], (inject_Z w), 0%Z. rewrite app_nil_r. split; [reflexivity|]. split; [left; exists w; split; [exact U|reflexivity]|]. split; [left; auto|]. right. split; [reflexivity|].
      change (power 0) with (inject_Z 1). rewrite <- inject_Z_mult. rewrite Z.mul_1_r, inject_Z_opp. reflexivity.
  - setoid_replace (inject_Z z - inject_Z z) with 0 by ring. pose proof (Qabs_nonneg (inject_Z z)). change (Qabs 0) with 0. lra.
Qed.
Example vector_meets : Forall (fun iv => prints_six expg (snd iv)) [(0%nat, 3 # 2); (4%nat, inject_Z (-3))] /\
  printVector expg [(0%nat, 3 # 2); (4%nat, inject_Z (-3))] false = txt "(0, 1.5), (4, -3)" ++ NL /\
  pairs_in (txt "(0, 1.5), (4, -3)" ++ NL) = [(txt "0", txt "1.5"); (txt "4", txt "-3")].
Proof. split; [constructor; [exact (proj1 expg_half)|constructor; [exact (expg_int (-3))|constructor]]|]. split; vm_compute; reflexivity. Qed.
Example array_meets : Forall (prints_six expg) [3 # 2; inject_Z 0; inject_Z (-3)] /\
  printVector_dense expg [3 # 2; inject_Z 0; inject_Z (-3)] false true = Some (TAB ++ txt "(0, 1.5), " ++ TAB ++ txt "(2, -3)" ++ NL).
Proof. split; [constructor; [exact (proj1 expg_half)|constructor; [exact (expg_int 0)|constructor; [exact (expg_int (-3))|constructor]]]|]. vm_compute. reflexivity. Qed.
Example matrix_meets : let m := {| pm_col := true; pm_major := [[(0%nat, 3 # 2); (1%nat, inject_Z 2)]; [(1%nat, inject_Z (-3))]]; pm_minor := 2 |} in
  (forall r c v, element m r c v -> prints_six expg v) /\
  printMatrix expg m = txt "Row 0: (0, 1.5)" ++ NL ++ txt "Row 1: (0, 2), (1, -3)" ++ NL.
Proof.
  cbv zeta. split; [|vm_compute; reflexivity]. intros r c v H. unfold element in H. cbn [pm_col pm_major] in H. destruct H as (vec & H & X).
  destruct c as [|[|c]]; cbn [nth_error] in H; [| |destruct c; discriminate]; injection H as <-.
  - destruct X as [X|[X|[]]]; injection X as _ <-; [exact (proj1 expg_half)|exact (expg_int 2)].
  - destruct X as [X|[]]; injection X as _ <-. exact (expg_int (-3)).
Qed.
Example statistics_meets : printStats expg (repeat (3 # 2) 6 ++ [DBL_MAX]) true nl =
  Some (concat (map (fun n => TAB ++ txt n ++ txt ": 1.5" ++ NL) ["total"; "avg"; "stddev"; "min"; "max"; "num"]%string) ++ TAB ++ txt "num_nonzero: 'inf'" ++ NL).
Proof. vm_compute. reflexivity. Qed.
