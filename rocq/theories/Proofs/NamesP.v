From Verif Require Import Prelude Model.TextUtil Model.Names Spec.TextSpec Spec.NameSpec Proofs.TextP.
From Coq Require Import Qround Lqa.

(** ** Printing digits *)
Lemma digit_code z : (0 <= z < 10)%Z -> nat_of_ascii (digit_char z) = (48 + Z.to_nat z)%nat.
Proof. intros H. unfold digit_char. apply nat_ascii_embedding. lia. Qed.
Lemma digit_ok z : (0 <= z < 10)%Z -> (48 <= nat_of_ascii (digit_char z) <= 57)%nat.
Proof. intros H. rewrite digit_code by assumption. lia. Qed.
Lemma dec_value_snoc a d : dec_value (a ++ [d]) = (10 * dec_value a + (Z.of_nat (nat_of_ascii d) - 48))%Z.
Proof.
  induction a as [|c a IH].
  - cbn [app dec_value length]. change (10 ^ Z.of_nat 0)%Z with 1%Z. lia.
  - cbn [app dec_value]. rewrite IH, app_length. cbn [length].
    replace (Z.of_nat (length a + 1)) with (Z.of_nat (length a) + 1)%Z by lia.
    rewrite Z.pow_add_r by lia. change (10 ^ 1)%Z with 10%Z. ring.
Qed.
Lemma dec_value_digit z : (0 <= z < 10)%Z -> dec_value [digit_char z] = z.
Proof. intros H. cbn [dec_value length]. rewrite digit_code by assumption. change (10 ^ Z.of_nat 0)%Z with 1%Z. lia. Qed.
Lemma digits_fuel_spec f z : (0 <= z < 10 * 2 ^ Z.of_nat f)%Z -> unsigned (digits_fuel f z) z.
Proof.
  revert z. induction f as [|f IH]; intros z H.
  - change (2 ^ Z.of_nat 0)%Z with 1%Z in H. cbn [digits_fuel]. rewrite Z.mod_small by lia.
    split; [discriminate|]. split; [constructor; [apply digit_ok; lia|constructor]|].
    symmetry. apply dec_value_digit. lia.
  - cbn [digits_fuel]. destruct (z <? 10)%Z eqn:E.
    + apply Z.ltb_lt in E. split; [discriminate|]. split; [constructor; [apply digit_ok; lia|constructor]|].
      symmetry. apply dec_value_digit. lia.
    + apply Z.ltb_ge in E. rewrite Nat2Z.inj_succ, Z.pow_succ_r in H by lia.
      pose proof (Z.div_mod z 10 ltac:(lia)) as D. pose proof (Z.mod_pos_bound z 10 ltac:(lia)) as M.
      destruct (IH (z / 10)%Z) as (A & B & C).
      { split; [apply Z.div_pos; lia|]. apply Z.div_lt_upper_bound; lia. }
      split; [destruct (digits_fuel f (z / 10)); discriminate|].
      split; [apply Forall_app; split; [exact B|constructor; [apply digit_ok; lia|constructor]]|].
      rewrite dec_value_snoc, <- C, digit_code by lia. lia.
Qed.
Lemma digits_spec z : (0 <= z)%Z -> unsigned (digits z) z.
Proof.
  intros H. unfold digits. apply digits_fuel_spec. split; [exact H|].
  destruct (Z.eq_dec z 0) as [->|N]; [vm_compute; reflexivity|].
  pose proof (Z.log2_spec z ltac:(lia)) as [_ L].
  pose proof (Z.log2_nonneg z). rewrite Z2Nat.id by lia. unfold Z.succ in L. lia.
Qed.
Lemma int_text_spec z : signed (int_text z) z.
Proof.
  unfold int_text. destruct (z <? 0)%Z eqn:E.
  - apply Z.ltb_lt in E. right. exists (digits (- z)), (- z)%Z. split; [reflexivity|].
    split; [apply digits_spec; lia|lia].
  - apply Z.ltb_ge in E. left. apply digits_spec. exact E.
Qed.
Lemma int_text_unsigned z : (0 <= z)%Z -> unsigned (int_text z) z.
Proof. intros H. unfold int_text. replace (z <? 0)%Z with false by (symmetry; apply Z.ltb_ge; exact H). apply digits_spec, H. Qed.
Lemma six_spec z : (0 <= z < 1000000)%Z -> unsigned (six z) z /\ length (six z) = 6%nat.
Proof.
  intros H. split; [|reflexivity]. unfold six. cbn [map].
  assert (M : forall y, (0 <= y mod 10 < 10)%Z) by (intros y; apply Z.mod_pos_bound; lia).
  split; [discriminate|]. split.
  - repeat (constructor; [apply digit_ok, M|]). constructor.
  - cbn [dec_value length]. rewrite !digit_code by apply M.
    change (10 ^ Z.of_nat 5)%Z with 100000%Z. change (10 ^ Z.of_nat 4)%Z with 10000%Z.
    change (10 ^ Z.of_nat 3)%Z with 1000%Z. change (10 ^ Z.of_nat 2)%Z with 100%Z.
    change (10 ^ Z.of_nat 1)%Z with 10%Z. change (10 ^ Z.of_nat 0)%Z with 1%Z.
    rewrite !Nat2Z.inj_add, !Z2Nat.id by (apply M).
    change (Z.of_nat 48) with 48%Z.
    Z.to_euclidean_division_equations; lia.
Qed.

(** ** Unique reading *)
Definition digitp (c : ascii) : Prop := (48 <= nat_of_ascii c <= 57)%nat.
Definition stops (r : text) : Prop := match r with [] => True | c :: _ => ~ digitp c end.
Lemma unsigned_cancel a b x y r s : unsigned a x -> unsigned b y -> stops r -> stops s ->
  a ++ r = b ++ s -> a = b /\ x = y /\ r = s.
Proof.
  intros (_ & A & ->) (_ & B & ->). revert b B. induction a as [|c a IH]; intros b B R S0 E.
  - destruct b as [|d b]; [cbn in E; subst; auto|].
    cbn in E. subst r. inversion B; subst. cbn in R. contradiction.
  - destruct b as [|d b].
    + cbn in E. subst s. inversion A; subst. cbn in S0. contradiction.
    + cbn in E. injection E as -> E. inversion A; inversion B; subst.
      destruct (IH H2 b H6 R S0 E) as (-> & _ & ->). auto.
Qed.
Lemma minus_not_digit : ~ digitp "-"%char. Proof. unfold digitp. cbn. lia. Qed.
Lemma unsigned_head a x : unsigned a x -> exists c r, a = c :: r /\ digitp c.
Proof. intros (N & F & _). destruct a as [|c r]; [congruence|]. inversion F; subst. exists c, r. auto. Qed.
Lemma signed_cancel a b x y r s : signed a x -> signed b y -> stops r -> stops s ->
  a ++ r = b ++ s -> x = y /\ r = s.
Proof.
  intros [A|(a' & x' & -> & A & ->)] [B|(b' & y' & -> & B & ->)] R S0 E.
  - destruct (unsigned_cancel a b x y r s A B R S0 E) as (_ & ? & ?). auto.
  - destruct (unsigned_head _ _ A) as (c & t & -> & D). cbn in E. injection E as -> E. contradiction (minus_not_digit D).
  - destruct (unsigned_head _ _ B) as (c & t & -> & D). cbn in E. injection E as <- E. contradiction (minus_not_digit D).
  - cbn in E. injection E as E. destruct (unsigned_cancel _ _ _ _ r s A B R S0 E) as (_ & -> & ?). auto.
Qed.
Lemma x_stops r : stops ("x"%char :: r). Proof. cbn. unfold digitp. cbn. lia. Qed.
Lemma sp_stops r : stops (" "%char :: r). Proof. cbn. unfold digitp. cbn. lia. Qed.
Lemma coef_cancel a b c d r s : coef_reads a c -> coef_reads b d -> stops r -> stops s ->
  a ++ r = b ++ s -> c = d /\ r = s.
Proof.
  intros (sg & m & ix & -> & I1 & G1 & M1) (sg' & m' & ix' & -> & I2 & G2 & M2) R S0 E.
  cbn [app] in E. injection E as Es E. rewrite <- !app_assoc in E. cbn [app] in E.
  assert (Q0 : m = m' /\ Z.abs (snd c) = Z.abs (snd d) /\ ix ++ r = ix' ++ s).
  { destruct M1 as [(-> & A1)|(ds & -> & D1 & _)]; destruct M2 as [(-> & A2)|(ds' & -> & D2 & _)].
    - cbn [app] in E. injection E as E. auto with zarith.
    - exfalso. destruct (unsigned_head _ _ D2) as (h & t & -> & Dh). cbn [app] in E. injection E as <- E.
      revert Dh. unfold digitp. cbn. lia.
    - exfalso. destruct (unsigned_head _ _ D1) as (h & t & -> & Dh). cbn [app] in E. injection E as -> E.
      revert Dh. unfold digitp. cbn. lia.
    - rewrite <- !app_assoc in E. cbn [app] in E.
      destruct (unsigned_cancel _ _ _ _ _ _ D1 D2 (sp_stops _) (sp_stops _) E) as (-> & Ez & E'). injection E' as E'. auto. }
  destruct Q0 as (_ & Az & E2).
  destruct (unsigned_cancel _ _ _ _ _ _ I1 I2 R S0 E2) as (_ & Ei & Er).
  split; [|exact Er]. destruct c as [ci cz], d as [di dz]. cbn [fst snd] in *. subst di. f_equal.
  destruct G1 as [(G1 & P1)|(G1 & P1)], G2 as [(G2 & P2)|(G2 & P2)]; subst; try discriminate; lia.
Qed.
Lemma coef_head a c : coef_reads a c -> exists h t, a = h :: t /\ (h = "+"%char \/ h = "-"%char).
Proof. intros (sg & m & ix & -> & _ & [(G & _)|(G & _)] & _); eexists _, _; split; try reflexivity; auto. Qed.
Lemma coefs_stops a cs r : coefs_read a cs -> stops r -> stops (a ++ r).
Proof.
  destruct cs as [|c cs]; cbn; [intros ->; auto|].
  intros (a1 & b & -> & H & _) _. destruct (coef_head _ _ H) as (h & t & -> & [->| ->]); cbn; unfold digitp; cbn; lia.
Qed.
Lemma coefs_cancel cs ds a b r s : coefs_read a cs -> coefs_read b ds ->
  a ++ " "%char :: r = b ++ " "%char :: s -> cs = ds /\ r = s.
Proof.
  revert ds a b. induction cs as [|c cs IH]; intros [|d ds] a b; cbn [coefs_read].
  - intros -> -> E. cbn in E. injection E as E. auto.
  - intros -> (a1 & b1 & -> & H & _) E. destruct (coef_head _ _ H) as (h & t & -> & [->| ->]); cbn in E; discriminate.
  - intros (a1 & b1 & -> & H & _) -> E. destruct (coef_head _ _ H) as (h & t & -> & [->| ->]); cbn in E; discriminate.
  - intros (a1 & b1 & -> & H1 & T1) (a2 & b2 & -> & H2 & T2) E. rewrite <- !app_assoc in E.
    destruct (coef_cancel a1 a2 c d _ _ H1 H2 (coefs_stops _ _ _ T1 (sp_stops _)) (coefs_stops _ _ _ T2 (sp_stops _)) E) as (-> & E2).
    destruct (IH _ _ _ T1 T2 E2) as (-> & ->). auto.
Qed.
Lemma ineq_cancel a b i j r s : ineq_reads a i -> ineq_reads b j -> stops r -> stops s ->
  a ++ r = b ++ s -> i = j /\ r = s.
Proof.
  intros (c & d & -> & C & D) (c' & d' & -> & C' & D') R S0 E.
  rewrite <- !app_assoc in E. cbn [txt String.list_ascii_of_string app] in E.
  destruct (coefs_cancel _ _ _ _ _ _ C C' E) as (E1 & E2). injection E2 as E2.
  destruct (signed_cancel _ _ _ _ _ _ D D' R S0 E2) as (E3 & E4).
  destruct i, j; cbn [fst snd] in *; subst; auto.
Qed.
Lemma join_cons sep a l : l <> [] -> join sep (a :: l) = a ++ sep ++ join sep l.
Proof. destruct l; [congruence|reflexivity]. Qed.
Lemma ineqs_cancel ts us l m r s : Forall2 ineq_reads ts l -> Forall2 ineq_reads us m ->
  l <> [] -> m <> [] ->
  join (txt "; ") ts ++ ")"%char :: r = join (txt "; ") us ++ ")"%char :: s -> l = m /\ r = s.
Proof.
  assert (C : forall r, stops (")"%char :: r)) by (intros ?; cbn; unfold digitp; cbn; lia).
  assert (C2 : forall r, stops (";"%char :: r)) by (intros ?; cbn; unfold digitp; cbn; lia).
  intros F. revert us m. induction F as [|t i ts l H F IH]; intros us m G N M E; [congruence|].
  destruct G as [|u j us m H' G]; [congruence|].
  destruct F as [|t2 i2 ts l H2 F]; destruct G as [|u2 j2 us m H2' G].
  - cbn [join] in E. destruct (ineq_cancel _ _ _ _ _ _ H H' (C _) (C _) E) as (-> & E2). injection E2 as ->. auto.
  - cbn [join] in E. rewrite <- !app_assoc in E. cbn [txt String.list_ascii_of_string app] in E.
    destruct (ineq_cancel _ _ _ _ _ _ H H' (C _) (C2 _) E) as (-> & E2). discriminate.
  - cbn [join] in E. rewrite <- !app_assoc in E. cbn [txt String.list_ascii_of_string app] in E.
    destruct (ineq_cancel _ _ _ _ _ _ H H' (C2 _) (C _) E) as (-> & E2). discriminate.
  - rewrite (join_cons _ t), (join_cons _ u) in E by discriminate. rewrite <- !app_assoc in E.
    cbn [txt String.list_ascii_of_string app] in E.
    destruct (ineq_cancel _ _ _ _ _ _ H H' (C2 _) (C2 _) E) as (-> & E2). injection E2 as E2.
    destruct (IH (u2 :: us) (j2 :: m) ltac:(constructor; assumption) ltac:(discriminate) ltac:(discriminate) E2) as (-> & ->). auto.
Qed.
Lemma term_cancel a b l m r s : term_reads a l -> term_reads b m -> l <> [] -> m <> [] ->
  a ++ r = b ++ s -> l = m /\ r = s.
Proof.
  intros (ts & F & ->) (us & G & ->) N M E. unfold paren in E. cbn [app] in E. injection E as E.
  rewrite <- !app_assoc in E. cbn [app] in E. apply (ineqs_cancel _ _ _ _ _ _ F G N M E).
Qed.
Lemma name_unique t d e : name_reads t d -> name_reads t e ->
  Forall (fun l => l <> []) d -> Forall (fun l => l <> []) e -> d = e.
Proof.
  assert (NE : forall u l, term_reads u l -> exists r, u = "("%char :: r).
  { intros u l (us & _ & ->). eexists. reflexivity. }
  intros (ts & F & ->) (us & G & E). revert us e G E.
  induction F as [|t1 l ts d H F IH]; intros us e G E ND NE'.
  - destruct G as [|u m us e H' G]; [reflexivity|]. destruct (NE _ _ H') as (r & ->).
    destruct us; cbn [join app] in E; discriminate.
  - destruct G as [|u m us e H' G].
    { destruct (NE _ _ H) as (r & ->). destruct ts; cbn [join app] in E; discriminate. }
    inversion ND as [|? ? Nl ND']; inversion NE' as [|? ? Nm NE'']; subst.
    destruct F as [|t2 l2 ts d H2 F]; destruct G as [|u2 m2 us e H2' G].
    + cbn [join] in E. destruct (term_cancel t1 u l m [] [] H H' Nl Nm) as (-> & _); [rewrite !app_nil_r; exact E|reflexivity].
    + cbn [join] in E. destruct (term_cancel t1 u l m [] (txt " V " ++ join (txt " V ") (u2 :: us)) H H' Nl Nm) as (_ & B);
        [rewrite app_nil_r; exact E|discriminate].
    + cbn [join] in E. destruct (term_cancel t1 u l m (txt " V " ++ join (txt " V ") (t2 :: ts)) [] H H' Nl Nm) as (_ & B);
        [rewrite app_nil_r; exact E|discriminate].
    + rewrite (join_cons _ t1), (join_cons _ u) in E by discriminate.
      destruct (term_cancel t1 u l m _ _ H H' Nl Nm E) as (-> & B). f_equal.
      apply (IH (u2 :: us) (m2 :: e)).
      * constructor; assumption.
      * cbn [txt String.list_ascii_of_string app] in B. injection B as B. exact B.
      * assumption.
      * assumption.
Qed.

(** ** What the model prints *)
Lemma Qfloor_Z z : Qfloor (inject_Z z) = z. Proof. apply Qfloor_Z. Qed.
Lemma near_int_Z z : near_int (inject_Z z) = true.
Proof.
  unfold near_int. rewrite Qfloor_Z. apply orb_true_iff. left. apply Qltb_lt.
  assert (E : (inject_Z z - inject_Z z == 0)%Q) by ring. rewrite E. reflexivity.
Qed.
Lemma truncate_Z z : truncate (inject_Z z) = z.
Proof.
  unfold truncate. destruct (Qltb (inject_Z z) 0) eqn:E; [|apply Qfloor_Z].
  rewrite <- inject_Z_opp, Qfloor_Z. lia.
Qed.
Lemma number_Z z : in_int z -> number_text (inject_Z z) = Some (int_text z).
Proof.
  intros (A & B). unfold number_text. rewrite near_int_Z. unfold cast_int. rewrite truncate_Z.
  apply Z.leb_le in A, B. rewrite A, B. reflexivity.
Qed.
Lemma Qabs_Z z : Qabs (inject_Z z) = inject_Z (Z.abs z). Proof. reflexivity. Qed.
Lemma coef_Z i z : (0 <= i)%Z -> in_int (Z.abs z) -> exists t, coef_text (i, inject_Z z) = Some t /\ coef_reads t (i, z).
Proof.
  intros I B. unfold coef_text. cbn [fst snd]. rewrite Qabs_Z.
  assert (G : let sg := if Qltb 0 (inject_Z z) then "+"%char else "-"%char in
     (sg = "+"%char /\ (0 < z)%Z \/ sg = "-"%char /\ (z <= 0)%Z)).
  { cbv zeta. destruct (Qltb 0 (inject_Z z)) eqn:E; [left|right]; split; try reflexivity.
    - apply Qltb_lt in E. rewrite Zlt_Qlt. exact E.
    - apply Qltb_ge in E. rewrite Zle_Qle. exact E. }
  set (sg := if Qltb 0 (inject_Z z) then "+"%char else "-"%char) in G. cbv zeta in G.
  assert (SG : (if Qltb 0 (inject_Z z) then txt "+" else txt "-") = [sg]) by (unfold sg; destruct (Qltb 0 (inject_Z z)); reflexivity).
  rewrite SG. clear SG.
  destruct (Qltb (Qabs (inject_Z (Z.abs z) - 1)) NAME_EPS) eqn:E.
  - apply Qltb_lt in E. assert (A : Z.abs z = 1%Z).
    { assert (E' : (inject_Z (Z.abs z) - 1 == inject_Z (Z.abs z - 1))%Q).
      { unfold Qminus, Z.sub. rewrite inject_Z_plus. reflexivity. }
      rewrite E', Qabs_Z in E.
      assert (L : (inject_Z (Z.abs (Z.abs z - 1)) < inject_Z 1)%Q) by (eapply Qlt_trans; [exact E|reflexivity]).
      rewrite <- Zlt_Qlt in L. lia. }
    eexists. split; [reflexivity|]. exists sg, [], (int_text i). cbn [fst snd].
    split; [reflexivity|]. split; [apply int_text_unsigned, I|]. split; [exact G|left; auto].
  - apply Qltb_ge in E. rewrite number_Z by exact B. eexists. split; [reflexivity|].
    exists sg, (int_text (Z.abs z) ++ [" "%char]), (int_text i). cbn [fst snd].
    split; [rewrite <- !app_assoc; reflexivity|]. split; [apply int_text_unsigned, I|]. split; [exact G|right].
    exists (int_text (Z.abs z)). split; [reflexivity|]. split; [apply int_text_unsigned; lia|].
    intros A. rewrite A in E. vm_compute in E. apply E. reflexivity.
Qed.
Lemma coefs_Z l : Forall (fun ic => (0 <= fst ic)%Z /\ in_int (Z.abs (snd ic))) l ->
  exists t, coefs_text (map (fun ic => (fst ic, inject_Z (snd ic))) l) = Some t /\ coefs_read t l.
Proof.
  induction 1 as [|[i z] l (A & B) F (t & E & R)].
  - exists []. split; reflexivity.
  - destruct (coef_Z i z A B) as (u & U & C). exists (u ++ t). cbn [map coefs_text fst snd].
    rewrite U, E. split; [reflexivity|]. exists u, t. auto.
Qed.
Lemma ineq_Z p : plain_ok p -> exists t, ineq_reads t p /\
  forall name append, setCgsName_ineq name (to_ineq p) append = Some (opening name append ++ t ++ [")"%char]).
Proof.
  intros (N & F & R). destruct (coefs_Z _ F) as (c & C & CR).
  exists (c ++ txt " >= " ++ int_text (snd p)). split.
  - exists c, (int_text (snd p)). split; [reflexivity|]. split; [exact CR|apply int_text_spec].
  - intros name append. unfold setCgsName_ineq. cbn [iq_co iq_rhs to_ineq].
    rewrite C, (number_Z _ R). destruct (fst p) as [|x l] eqn:E; [congruence|].
    cbn [map]. rewrite <- !app_assoc. reflexivity.
Qed.
Lemma removelast_snoc (a : text) c : removelast (a ++ [c]) = a.
Proof. apply removelast_last. Qed.
Lemma opening_append a : opening (a ++ [")"%char]) true = a ++ txt "; ".
Proof.
  unfold opening. destruct (a ++ [")"%char]) eqn:E; [destruct a; discriminate|].
  rewrite <- E, removelast_snoc, app_nil_r. reflexivity.
Qed.
Lemma opening_new a : a <> [] -> opening a false = a ++ txt " V (".
Proof. unfold opening. destruct a; [congruence|]. intros _. rewrite <- app_assoc. reflexivity. Qed.

Lemma append_loop l : Forall plain_ok l -> exists ts, Forall2 ineq_reads ts l /\
  forall pre, ineq_loop (pre ++ [")"%char]) false (map to_ineq l)
    = Some (pre ++ fold_right (fun t r => txt "; " ++ t ++ r) [] ts ++ [")"%char]).
Proof.
  induction 1 as [|p l P F (ts & G & L)].
  - exists []. split; [constructor|]. intros pre. reflexivity.
  - destruct (ineq_Z p P) as (t & R & S1). exists (t :: ts). split; [constructor; assumption|].
    intros pre. cbn [map ineq_loop negb]. rewrite S1, opening_append.
    rewrite app_assoc, L. f_equal. cbn [fold_right]. rewrite <- !app_assoc. reflexivity.
Qed.
Lemma join_fold sep t ts : join sep (t :: ts) = t ++ fold_right (fun t r => sep ++ t ++ r) [] ts.
Proof.
  revert t. induction ts as [|u ts IH]; intros t; [cbn; symmetry; apply app_nil_r|].
  rewrite join_cons by discriminate. rewrite IH. reflexivity.
Qed.
Lemma term_calls_spec l : l <> [] -> Forall plain_ok l -> exists t, term_reads t l /\
  forall name, term_calls name (map to_ineq l)
    = Some ((match name with [] => [] | _ => name ++ txt " V " end) ++ t).
Proof.
  intros N F. destruct l as [|p l]; [congruence|]. inversion F; subst.
  destruct (ineq_Z p H1) as (t & R & S1). destruct (append_loop l H2) as (ts & G & L).
  exists (paren (join (txt "; ") (t :: ts))). split; [exists (t :: ts); split; [constructor; assumption|reflexivity]|].
  intros name. unfold term_calls. cbn [map ineq_loop negb]. rewrite S1.
  assert (O : opening name false = (match name with [] => [] | _ => name ++ txt " V " end) ++ ["("%char])
    by (destruct name; reflexivity).
  rewrite O. rewrite app_assoc, L, join_fold. f_equal. unfold paren. rewrite <- !app_assoc. reflexivity.
Qed.
Lemma all_calls_join d : Forall (fun l => l <> [] /\ Forall plain_ok l) d ->
  exists ts, Forall2 term_reads ts d /\
    forall name, name <> [] -> all_calls name (map (map to_ineq) d)
      = Some (name ++ fold_right (fun t r => txt " V " ++ t ++ r) [] ts).
Proof.
  induction 1 as [|l d (N & P) F (ts & G & L)].
  - exists []. split; [constructor|]. intros name _. cbn. rewrite app_nil_r. reflexivity.
  - destruct (term_calls_spec l N P) as (t & R & S1). exists (t :: ts). split; [constructor; assumption|].
    intros name NE. cbn [map all_calls]. rewrite S1. destruct name as [|c0 n0] eqn:En; [congruence|].
    rewrite <- En in *. rewrite L by (subst; discriminate). f_equal. cbn [fold_right]. rewrite <- !app_assoc. reflexivity.
Qed.
Lemma all_calls_spec d : Forall (fun l => l <> [] /\ Forall plain_ok l) d ->
  exists t, all_calls [] (map (map to_ineq) d) = Some t /\ name_reads t d.
Proof.
  intros F. destruct F as [|l d (N & P) F].
  - exists []. split; [reflexivity|]. exists []. split; [constructor|reflexivity].
  - destruct (term_calls_spec l N P) as (t & R & S1). destruct (all_calls_join d F) as (ts & G & L).
    exists (join (txt " V ") (t :: ts)). split.
    + cbn [map all_calls]. rewrite S1. cbn [app].
      assert (NE : t <> []) by (destruct R as (us & _ & ->); discriminate).
      rewrite (L t NE), join_fold. reflexivity.
    + exists (t :: ts). split; [constructor; assumption|reflexivity].
Qed.

(** ** Numbers that are not integers *)
Lemma round_even_near q : (Qabs (inject_Z (round_even q) - q) <= 1#2)%Q.
Proof.
  unfold round_even. pose proof (Qfloor_le q) as L. pose proof (Qlt_floor q) as U.
  rewrite inject_Z_plus in U. change (inject_Z 1) with 1%Q in U.
  destruct (Qltb (q - inject_Z (Qfloor q)) (1#2)) eqn:E1.
  - apply Qltb_lt in E1. apply Qabs_Qle_condition. split; lra.
  - apply Qltb_ge in E1. destruct (Qltb (1#2) (q - inject_Z (Qfloor q))) eqn:E2.
    + apply Qltb_lt in E2. rewrite inject_Z_plus. change (inject_Z 1) with 1%Q. apply Qabs_Qle_condition. split; lra.
    + apply Qltb_ge in E2. destruct (Z.even (Qfloor q)); [|rewrite inject_Z_plus; change (inject_Z 1) with 1%Q];
        apply Qabs_Qle_condition; split; lra.
Qed.
Lemma round_even_nonneg q : (0 <= q)%Q -> (0 <= round_even q)%Z.
Proof.
  intros H. pose proof (round_even_near q) as N. apply Qabs_Qle_condition in N. destruct N as [N _].
  assert (L : (inject_Z (-1) < inject_Z (round_even q))%Q) by (change (inject_Z (-1)) with (-(1))%Q; lra).
  rewrite <- Zlt_Qlt in L. lia.
Qed.
Lemma double_text_spec q : exists v, decimal (double_text q) v /\ (Qabs (v - q) <= 1 # 2000000)%Q.
Proof.
  unfold double_text. set (m := round_even (Qabs q * 1000000)).
  assert (M0 : (0 <= m)%Z). { apply round_even_nonneg. pose proof (Qabs_nonneg q). lra. }
  pose proof (round_even_near (Qabs q * 1000000)) as N. fold m in N. apply Qabs_Qle_condition in N.
  destruct (six_spec (m mod 1000000) (Z.mod_pos_bound m 1000000 ltac:(lia))) as (S6 & L6).
  assert (D : unsigned (digits (m / 1000000)) (m / 1000000)) by (apply digits_spec, Z.div_pos; lia).
  set (w := (inject_Z (m / 1000000) + inject_Z (m mod 1000000) / inject_Z (10 ^ Z.of_nat 6))%Q).
  assert (W : (w == inject_Z m / 1000000)%Q).
  { unfold w. change (inject_Z (10 ^ Z.of_nat 6)) with 1000000%Q.
    rewrite (Z.div_mod m 1000000) at 3 by lia. rewrite inject_Z_plus, inject_Z_mult. change (inject_Z 1000000) with 1000000%Q. field. }
  destruct (Qltb q 0) eqn:E.
  - apply Qltb_lt in E. exists (- w)%Q. split.
    + exists ["-"%char], (digits (m / 1000000)), (six (m mod 1000000)), (m / 1000000)%Z, (m mod 1000000)%Z.
      rewrite L6. split; [reflexivity|]. split; [exact D|]. split; [exact S6|]. cbv zeta. right. split; [reflexivity|reflexivity].
    + rewrite Qabs_neg in N by lra. apply Qabs_Qle_condition. rewrite W. 
      assert (K : (inject_Z m / 1000000 == inject_Z m * (1#1000000))%Q) by field. rewrite K. split; lra.
  - apply Qltb_ge in E. exists w. split.
    + exists [], (digits (m / 1000000)), (six (m mod 1000000)), (m / 1000000)%Z, (m mod 1000000)%Z.
      rewrite L6. split; [reflexivity|]. split; [exact D|]. split; [exact S6|]. cbv zeta. left. split; [reflexivity|reflexivity].
    + rewrite Qabs_pos in N by lra. apply Qabs_Qle_condition. rewrite W. 
      assert (K : (inject_Z m / 1000000 == inject_Z m * (1#1000000))%Q) by field. rewrite K. split; lra.
Qed.

Lemma truncate_spec q : let w := inject_Z (truncate q) in
  (Qabs w <= Qabs q)%Q /\ (Qabs q < Qabs w + 1)%Q /\ (Qabs (w - q) == Qabs q - Qabs w)%Q.
Proof.
  cbv zeta. unfold truncate. destruct (Qltb q 0) eqn:N.
  - apply Qltb_lt in N. pose proof (Qfloor_le (- q)) as L. pose proof (Qlt_floor (- q)) as U.
    rewrite inject_Z_plus in U. change (inject_Z 1) with 1%Q in U. rewrite inject_Z_opp.
    assert (P : (0 <= Qfloor (- q))%Z). { change 0%Z with (Qfloor 0). apply Qfloor_resp_le. lra. }
    rewrite Zle_Qle in P. change (inject_Z 0) with 0%Q in P.
    set (f := inject_Z (Qfloor (- q))) in *. clearbody f.
    rewrite (Qabs_neg q) by lra. rewrite (Qabs_neg (- f)) by lra.
    rewrite (Qabs_pos (- f - q)) by lra. repeat split; lra.
  - apply Qltb_ge in N. pose proof (Qfloor_le q) as L. pose proof (Qlt_floor q) as U.
    rewrite inject_Z_plus in U. change (inject_Z 1) with 1%Q in U.
    assert (P : (0 <= Qfloor q)%Z). { change 0%Z with (Qfloor 0). apply Qfloor_resp_le. lra. }
    rewrite Zle_Qle in P. change (inject_Z 0) with 0%Q in P.
    set (f := inject_Z (Qfloor q)) in *. clearbody f.
    rewrite (Qabs_pos q) by lra. rewrite (Qabs_pos f) by lra.
    rewrite (Qabs_neg (f - q)) by lra. repeat split; lra.
Qed.
Lemma number_text_spec q t : number_text q = Some t ->
  exists v, (decimal t v \/ exists z, signed t z /\ (v == inject_Z z)%Q) /\
    (Qabs (v - q) < 1)%Q /\
    ((forall z, ~ (0 < Qabs (inject_Z z) - Qabs q < 1 # 10000000)%Q) -> (Qabs (v - q) <= 1 # 2000000)%Q).
Proof.
  unfold number_text. destruct (near_int q) eqn:E.
  - unfold cast_int. destruct (_ && _); [|discriminate]. intros H. injection H as <-.
    exists (inject_Z (truncate q)). split; [right; exists (truncate q); split; [apply int_text_spec|reflexivity]|].
    destruct (truncate_spec q) as (T1 & T2 & T3). cbv zeta in T1, T2, T3.
    split; [rewrite T3; lra|]. intros NJ.
    assert (Z0 : exists z, (Qabs (q - inject_Z z) < 1 # 10000000)%Q).
    { unfold near_int in E. apply orb_true_iff in E. destruct E as [E|E]; apply Qltb_lt in E; eexists; exact E. }
    destruct Z0 as (z & Hz). specialize (NJ z).
    pose proof (Qabs_triangle_reverse (inject_Z z) q) as TR. rewrite Qabs_Qminus in TR.
    assert (Lz : (Qabs (inject_Z z) <= Qabs q)%Q).
    { destruct (Qlt_le_dec (Qabs q) (Qabs (inject_Z z))) as [C|C]; [|exact C]. exfalso. apply NJ. split; lra. }
    pose proof (Qabs_triangle_reverse q (inject_Z z)) as TR2.
    rewrite !Qabs_Z in *.
    assert (A : (Z.abs z = Z.abs (truncate q))%Z).
    { apply Z.le_antisymm.
      - assert (K : (inject_Z (Z.abs z) < inject_Z (Z.abs (truncate q) + 1))%Q)
          by (rewrite inject_Z_plus; change (inject_Z 1) with 1%Q; lra).
        rewrite <- Zlt_Qlt in K. lia.
      - assert (K : (inject_Z (Z.abs (truncate q)) < inject_Z (Z.abs z + 1))%Q)
          by (rewrite inject_Z_plus; change (inject_Z 1) with 1%Q; lra).
        rewrite <- Zlt_Qlt in K. lia. }
    rewrite T3, <- A. lra.
  - intros H. injection H as <-. destruct (double_text_spec q) as (v & D & B). exists v. split; [left; exact D|].
    split; [eapply Qle_lt_trans; [exact B|reflexivity]|]. intros _. exact B.
Qed.

(** ** Letters that never occur inside an inequality *)
Lemma unsigned_no_char c t z : unsigned t z -> ~ digitp c -> ~ In c t.
Proof. intros (_ & F & _) N I0. rewrite Forall_forall in F. apply N, F, I0. Qed.
Lemma signed_no_char c t z : signed t z -> ~ digitp c -> c <> "-"%char -> ~ In c t.
Proof.
  intros [H|(u & w & -> & H & _)] N D I0; [exact (unsigned_no_char _ _ _ H N I0)|].
  destruct I0 as [I0|I0]; [congruence|exact (unsigned_no_char _ _ _ H N I0)].
Qed.
Definition foreign (c : ascii) : Prop := c = "V"%char \/ c = "("%char \/ c = ")"%char.
Lemma foreign_digit c : foreign c -> ~ digitp c.
Proof. intros [->|[->| ->]]; unfold digitp; cbn; lia. Qed.
Lemma coefs_no_char c t cs : foreign c -> coefs_read t cs -> ~ In c t.
Proof.
  intros Fc. revert t. induction cs as [|ic cs IH]; cbn [coefs_read]; [intros t -> []|].
  intros t (a & b & -> & (sg & m & ix & -> & X & G & M) & B) I0.
  apply in_app_or in I0. destruct I0 as [I0|I0]; [|exact (IH _ B I0)].
  pose proof (foreign_digit c Fc) as D.
  destruct I0 as [I0|I0].
  { destruct G as [(G & _)|(G & _)]; destruct Fc as [E|[E|E]]; subst; discriminate. }
  apply in_app_or in I0. destruct I0 as [I0|[I0|I0]].
  - destruct M as [(-> & _)|(ds & -> & U & _)]; [contradiction|].
    apply in_app_or in I0. destruct I0 as [I0|[I0|[]]]; [exact (unsigned_no_char _ _ _ U D I0)|].
    destruct Fc as [E|[E|E]]; subst; discriminate.
  - destruct Fc as [E|[E|E]]; subst; discriminate.
  - exact (unsigned_no_char _ _ _ X D I0).
Qed.
Lemma ineq_no_char c t i : foreign c -> ineq_reads t i -> ~ In c t.
Proof.
  intros Fc (a & b & -> & A & B) I0.
  apply in_app_or in I0. destruct I0 as [I0|I0]; [exact (coefs_no_char _ _ _ Fc A I0)|].
  apply in_app_or in I0. destruct I0 as [I0|I0].
  - cbn in I0. destruct Fc as [->|[->| ->]]; repeat (destruct I0 as [I0|I0]; [discriminate|]); contradiction.
  - refine (signed_no_char _ _ _ B (foreign_digit _ Fc) _ I0). destruct Fc as [->|[->| ->]]; discriminate.
Qed.
Lemma join_no_char c ts l : foreign c -> Forall2 ineq_reads ts l -> ~ In c (join (txt "; ") ts).
Proof.
  intros Fc F. induction F as [|t i ts l H F IH]; [intros []|].
  destruct ts as [|t2 ts]; [exact (ineq_no_char _ _ _ Fc H)|].
  rewrite join_cons by discriminate. intros I0. apply in_app_or in I0.
  destruct I0 as [I0|I0]; [exact (ineq_no_char _ _ _ Fc H I0)|].
  apply in_app_or in I0. destruct I0 as [I0|I0]; [|exact (IH I0)].
  destruct Fc as [->|[->| ->]]; cbn in I0; destruct I0 as [I0|[I0|[]]]; discriminate.
Qed.
Lemma first_close (a b x y : text) : ~ In ")"%char a -> ~ In ")"%char b ->
  a ++ ")"%char :: x = b ++ ")"%char :: y -> a = b /\ x = y.
Proof.
  revert b. induction a as [|c a IH]; intros [|d b] A B E; cbn [app] in E.
  - injection E as E. auto.
  - injection E as <- E. exfalso. apply B. left. reflexivity.
  - injection E as -> E. exfalso. apply A. left. reflexivity.
  - injection E as -> E. destruct (IH b) as (-> & ->); auto; intros I0; [apply A|apply B]; right; exact I0.
Qed.
(** A readable name closes its first parenthesis before any "V". *)
Lemma unreadable pre mid rest d : ~ In ")"%char pre -> ~ In ")"%char mid ->
  name_reads ("("%char :: pre ++ "V"%char :: mid ++ ")"%char :: rest) d -> False.
Proof.
  intros P M (ts & F & E). destruct F as [|t l ts d H F]; [discriminate|].
  destruct H as (us & G & ->).
  assert (K : exists y, join (txt " V ") (paren (join (txt "; ") us) :: ts)
                        = "("%char :: join (txt "; ") us ++ ")"%char :: y).
  { destruct ts as [|t2 ts].
    - exists []. reflexivity.
    - rewrite join_cons by discriminate. unfold paren. eexists. cbn [app]. rewrite <- app_assoc. reflexivity. }
  destruct K as (y & K). rewrite K in E. injection E as E.
  change (pre ++ "V"%char :: mid ++ ")"%char :: rest) with (pre ++ ("V"%char :: mid) ++ ")"%char :: rest) in E.
  rewrite app_assoc in E.
  assert (NC : ~ In ")"%char (pre ++ "V"%char :: mid)).
  { intros I0. apply in_app_or in I0. destruct I0 as [I0|[I0|I0]]; [exact (P I0)|discriminate|exact (M I0)]. }
  destruct (first_close _ _ _ _ NC
     (join_no_char ")"%char us l (or_intror (or_intror eq_refl)) G) E) as (E1 & _).
  apply (join_no_char "V"%char us l (or_introl eq_refl) G). rewrite <- E1. apply in_or_app. right. left. reflexivity.
Qed.
(** The loop over further inequalities when the name so far is arbitrary. *)
Lemma ineqs_calls_spec l : l <> [] -> Forall plain_ok l -> exists ts, Forall2 ineq_reads ts l /\
  forall name append, setCgsName_ineqs name (map to_ineq l) append
    = Some ((match opening name append with [] => [] | n => n ++ txt " V " end) ++ paren (join (txt "; ") ts) ++ [")"%char]).
Proof.
  intros N F. destruct l as [|p l]; [congruence|]. inversion F; subst.
  destruct (ineq_Z p H1) as (t & R & S1). destruct (append_loop l H2) as (ts & G & L).
  exists (t :: ts). split; [constructor; assumption|]. intros name append.
  unfold setCgsName_ineqs. cbn [map ineq_loop negb]. rewrite S1.
  set (op := opening name append).
  assert (O : opening op false = (match op with [] => [] | n => n ++ txt " V " end) ++ ["("%char])
    by (destruct op; reflexivity).
  rewrite O. rewrite app_assoc, L. cbn [option_map]. f_equal. rewrite join_fold. unfold paren.
  destruct op; repeat (rewrite <- ?app_assoc; cbn [app]); reflexivity.
Qed.
