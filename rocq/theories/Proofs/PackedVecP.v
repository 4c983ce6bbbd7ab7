From Verif Require Import Prelude Model.Tolerance Model.PackedVec Proofs.ToleranceP.

(** ** Compensated accumulation is exact in exact arithmetic *)
Lemma kahan_step_comp s a b : comp s == 0 -> comp (kahan_step s a b) == 0.
Proof. intro H. cbn. ring. Qed.
Lemma kahan_step_acc s a b : comp s == 0 -> acc (kahan_step s a b) == acc s + a * b.
Proof. intro H. cbn. rewrite H. ring. Qed.
Lemma plain_step_comp s a b : comp s == 0 -> comp (plain_step s a b) == 0.
Proof. intro H. cbn. exact H. Qed.
Lemma plain_step_acc s a b : comp s == 0 -> acc (plain_step s a b) == acc s + a * b.
Proof. intro H. cbn. rewrite H. ring. Qed.

(** A step function that behaves like exact accumulation. *)
Definition exact_step (step : kahan -> Q -> Q -> kahan) : Prop :=
  forall s a b, comp s == 0 -> comp (step s a b) == 0 /\ acc (step s a b) == acc s + a * b.
Lemma kahan_exact : exact_step kahan_step.
Proof. intros s a b H. split; [apply kahan_step_comp | apply kahan_step_acc]; exact H. Qed.
Lemma plain_exact : exact_step plain_step.
Proof. intros s a b H. split; [apply plain_step_comp | apply plain_step_acc]; exact H. Qed.

Lemma fold_exact {A} step (f g : A -> Q) l s :
  exact_step step -> comp s == 0 ->
  acc (fold_left (fun s e => step s (f e) (g e)) l s) == acc s + Qsumf (fun e => f e * g e) l.
Proof.
  intro Hs. revert s. induction l as [|e l IH]; intros s H; cbn [fold_left].
  - rewrite Qsumf_nil. ring.
  - destruct (Hs s (f e) (g e) H) as [H1 H2].
    rewrite IH by exact H1. rewrite H2, Qsumf_cons. ring.
Qed.

Lemma dot_merge_nil_l step vb s : dot_merge step [] vb s = s.
Proof. destruct vb; reflexivity. Qed.
Lemma dot_merge_nil_r step va s : dot_merge step va [] s = s.
Proof. destruct va; reflexivity. Qed.
Lemma dot_merge_cons step ea ra eb rb s :
  dot_merge step (ea :: ra) (eb :: rb) s =
  if Nat.eqb (fst ea) (fst eb) then dot_merge step ra rb (step s (snd ea) (snd eb))
  else if Nat.ltb (fst ea) (fst eb) then dot_merge step ra (eb :: rb) s
  else dot_merge step (ea :: ra) rb s.
Proof. reflexivity. Qed.

Lemma pdot_pval_zero va lo vb :
  psorted_from lo vb -> (forall e, In e va -> (fst e < lo)%nat) -> pdot va (pval vb) == 0.
Proof.
  intros Hb Ha. unfold pdot.
  rewrite (Qsumf_ext _ (fun _ => 0)); [apply Qsumf_zero|].
  intros e He. rewrite (pval_below lo vb (fst e) Hb (Ha e He)). ring.
Qed.

Lemma dot_merge_correct step la lb va vb s :
  exact_step step -> psorted_from la va -> psorted_from lb vb -> comp s == 0 ->
  acc (dot_merge step va vb s) == acc s + pdot va (pval vb).
Proof.
  intro Hs. revert la lb vb s.
  induction va as [|ea ra IHa]; intros la lb vb s Ha Hb Hc.
  - rewrite dot_merge_nil_l, pdot_nil. ring.
  - revert lb s Hb Hc. induction vb as [|eb rb IHb]; intros lb s Hb Hc.
    + rewrite dot_merge_nil_r.
      rewrite (pdot_ext _ (pval []) (fun _ => 0)) by (intro; reflexivity).
      assert (H0 : pdot (ea :: ra) (fun _ => 0) == 0).
      { unfold pdot. rewrite (Qsumf_ext _ (fun _ => 0)); [apply Qsumf_zero|]. intros; ring. }
      rewrite H0. ring.
    + rewrite dot_merge_cons. destruct Ha as [Ha1 Ha2]. destruct Hb as [Hb1 Hb2].
      destruct (Nat.eqb_spec (fst ea) (fst eb)) as [E|E].
      * destruct (Hs s (snd ea) (snd eb) Hc) as [H1 H2].
        rewrite (IHa (S (fst ea)) (S (fst eb)) rb _ Ha2 Hb2 H1).
        rewrite H2, pdot_cons, pval_cons, E, Nat.eqb_refl.
        rewrite (pval_below _ rb (fst eb) Hb2) by lia.
        rewrite (pdot_below (S (fst ea)) ra (pval (eb :: rb)) (pval rb) Ha2).
        { ring. }
        intros i Hi. rewrite pval_cons. destruct (Nat.eqb_spec (fst eb) i); [lia|]. ring.
      * destruct (Nat.ltb_spec (fst ea) (fst eb)) as [L|L].
        -- assert (Hb' : psorted_from (fst eb) (eb :: rb)) by (split; [lia|exact Hb2]).
           rewrite (IHa (S (fst ea)) (fst eb) (eb :: rb) s Ha2 Hb' Hc).
           rewrite pdot_cons.
           rewrite (pval_below (fst eb) (eb :: rb) (fst ea) Hb') by lia. ring.
        -- rewrite (IHb (S (fst eb)) s Hb2 Hc).
           assert (Ha' : psorted_from (fst ea) (ea :: ra)) by (split; [lia|exact Ha2]).
           rewrite (pdot_below (fst ea) (ea :: ra) (pval (eb :: rb)) (pval rb) Ha'); [reflexivity|].
           intros i Hi. rewrite pval_cons.
           destruct (Nat.eqb_spec (fst eb) i) as [E2|E2]; [lia|ring].
Qed.

Lemma dense_correct step a b n : exact_step step ->
  acc (fold_left (fun s i => step s (a i) (b i)) (seq 0 n) kahan0)
  == Qsumf (fun i => a i * b i) (seq 0 n).
Proof. intro Hs. rewrite fold_exact; [cbn [acc kahan0]; ring|exact Hs|reflexivity]. Qed.

Lemma sparse_dense_correct step v b : exact_step step ->
  acc (fold_left (fun s e => step s (snd e) (b (fst e))) v kahan0) == pdot v b.
Proof.
  intro Hs. rewrite (fold_exact step (fun e : nat * Q => snd e) (fun e => b (fst e)));
    [cbn [acc kahan0]; unfold pdot; ring|exact Hs|reflexivity].
Qed.

(** ** Packed sum *)
Definition idx_below (hi : nat) (v : packed) : Prop := forall e, In e v -> (fst e < hi)%nat.

Lemma psorted_app lo hi u w :
  psorted_from lo u -> idx_below hi u -> psorted_from hi w -> (lo <= hi)%nat ->
  psorted_from lo (u ++ w).
Proof.
  revert lo. induction u as [|e u IH]; intros lo Hu Hb Hw Hlo; cbn [app].
  - apply psorted_from_weaken with hi; assumption.
  - destruct Hu as [H1 H2]. split; [exact H1|].
    assert (fst e < hi)%nat by (apply Hb; left; reflexivity).
    apply IH; [exact H2| |exact Hw|lia].
    intros x Hx. apply Hb. right. exact Hx.
Qed.

Lemma pval_idx_below hi v i : idx_below hi v -> (hi <= i)%nat -> pval v i == 0.
Proof.
  intros H Hi. unfold pval. rewrite (Qsumf_ext _ (fun _ => 0)); [apply Qsumf_zero|].
  intros e He. specialize (H e He). destruct (Nat.eqb_spec (fst e) i); [lia|reflexivity].
Qed.

Lemma vec2_entry_err mult2 eps e i :
  0 <= eps ->
  Qabs (pval (sum_vec2_entry mult2 eps e) i - mult2 * (if Nat.eqb (fst e) i then snd e else 0))
  <= Qabs mult2 * eps.
Proof.
  intro He. unfold sum_vec2_entry.
  pose proof (Qabs_nonneg mult2) as Hm.
  assert (Hp : 0 <= Qabs mult2 * eps) by (apply Qmult_le_0_compat; assumption).
  destruct (isZero (snd e) eps) eqn:E.
  - apply isZero_iff in E. rewrite pval_nil.
    destruct (Nat.eqb (fst e) i).
    + assert (Q1 : Qabs (0 - mult2 * snd e) == Qabs mult2 * Qabs (snd e)).
      { setoid_replace (0 - mult2 * snd e) with (- (mult2 * snd e)) by ring.
        rewrite Qabs_opp. apply Qabs_Qmult. }
      rewrite Q1. rewrite !(Qmult_comm (Qabs mult2)).
      apply Qmult_le_compat_r; [lra|exact Hm].
    + setoid_replace (0 - mult2 * 0) with 0 by ring. cbn [Qabs]. exact Hp.
  - rewrite pval_cons, pval_nil. cbn [fst snd].
    destruct (Nat.eqb (fst e) i).
    + setoid_replace (mult2 * snd e + 0 - mult2 * snd e) with 0 by ring. exact Hp.
    + setoid_replace (0 + 0 - mult2 * 0) with 0 by ring. exact Hp.
Qed.

Lemma vec2_entry_idx mult2 eps e x : In x (sum_vec2_entry mult2 eps e) -> fst x = fst e.
Proof.
  unfold sum_vec2_entry. destruct (isZero _ _); cbn; [tauto|]. intros [<-|[]]. reflexivity.
Qed.

Lemma vec2_entry_sorted mult2 eps e lo : (lo <= fst e)%nat -> psorted_from lo (sum_vec2_entry mult2 eps e).
Proof. intro H. unfold sum_vec2_entry. destruct (isZero _ _); cbn; auto. Qed.

Lemma vec2_entry_other mult2 eps e i : fst e <> i -> pval (sum_vec2_entry mult2 eps e) i == 0.
Proof.
  intro H. unfold sum_vec2_entry. destruct (isZero _ _); [reflexivity|].
  rewrite pval_cons, pval_nil. cbn [fst snd]. destruct (Nat.eqb_spec (fst e) i); [congruence|ring].
Qed.

Lemma tail_sorted mult2 eps lo v2 :
  psorted_from lo v2 -> psorted_from lo (flat_map (sum_vec2_entry mult2 eps) v2).
Proof.
  revert lo. induction v2 as [|e r IH]; intros lo H; cbn [flat_map]; [exact I|].
  destruct H as [H1 H2].
  apply psorted_app with (S (fst e)); [apply vec2_entry_sorted; exact H1| |apply IH; exact H2|lia].
  intros x Hx. rewrite (vec2_entry_idx _ _ _ _ Hx). lia.
Qed.

Lemma tail_err mult2 eps lo v2 i :
  0 <= eps -> psorted_from lo v2 ->
  Qabs (pval (flat_map (sum_vec2_entry mult2 eps) v2) i - mult2 * pval v2 i) <= Qabs mult2 * eps.
Proof.
  intro He. revert lo. induction v2 as [|e r IH]; intros lo H; cbn [flat_map].
  - rewrite pval_nil. setoid_replace (0 - mult2 * 0) with 0 by ring.
    apply Qmult_le_0_compat; [apply Qabs_nonneg|exact He].
  - destruct H as [H1 H2]. rewrite pval_app, pval_cons.
    destruct (Nat.eq_dec (fst e) i) as [E|E].
    + rewrite (pval_below (S (fst e)) _ i (tail_sorted mult2 eps _ _ H2)) by lia.
      rewrite (pval_below (S (fst e)) r i H2) by lia.
      pose proof (vec2_entry_err mult2 eps e i He) as Hx.
      rewrite Qplus_0_r, Qplus_0_r. exact Hx.
    + rewrite (vec2_entry_other _ _ _ _ E).
      destruct (Nat.eqb_spec (fst e) i) as [|_]; [congruence|].
      rewrite !Qplus_0_l. apply (IH _ H2).
Qed.

Lemma sum_inner_spec mult2 eps ind1 v2 : forall lo nv0 out nv rest,
  0 <= eps -> psorted_from lo v2 ->
  sum_inner mult2 eps ind1 nv0 v2 = (out, nv, rest) ->
  psorted_from lo out /\ idx_below ind1 out /\ psorted_from (S ind1) rest /\ nv == nv0 + mult2 * pval v2 ind1 /\ (forall i, (i < ind1)%nat ->
     Qabs (pval out i - mult2 * pval v2 i) <= Qabs mult2 * eps) /\ (forall i, (ind1 < i)%nat -> pval rest i == pval v2 i).
Proof.
  induction v2 as [|e2 r2 IH]; intros lo nv0 out nv rest He Hs Hin; cbn [sum_inner] in Hin.
  - injection Hin as <- <- <-. rewrite pval_nil.
    split; [exact I|]. split; [intros x []|]. split; [exact I|]. split; [ring|]. split.
    + intros i _. rewrite !pval_nil. setoid_replace (0 - mult2 * 0) with 0 by ring.
      apply Qmult_le_0_compat; [apply Qabs_nonneg|exact He].
    + intros i _. reflexivity.
  - destruct Hs as [Hs1 Hs2].
    destruct (Nat.ltb_spec (fst e2) ind1) as [L|L].
    + destruct (sum_inner mult2 eps ind1 nv0 r2) as [[out' nv'] rest'] eqn:E.
      injection Hin as <- <- <-.
      destruct (IH _ _ _ _ _ He Hs2 E) as (I1 & I2 & I3 & I4 & I5 & I6).
      repeat split.
      * apply psorted_app with (S (fst e2)); [apply vec2_entry_sorted; exact Hs1| |exact I1|lia].
        intros x Hx. rewrite (vec2_entry_idx _ _ _ _ Hx). lia.
      * intros x Hx. apply in_app_or in Hx. destruct Hx as [Hx|Hx]; [|apply I2; exact Hx].
        rewrite (vec2_entry_idx _ _ _ _ Hx). exact L.
      * exact I3.
      * rewrite I4, pval_cons. destruct (Nat.eqb_spec (fst e2) ind1); [lia|]. ring.
      * intros i Hi. rewrite pval_app, pval_cons.
        destruct (Nat.eq_dec (fst e2) i) as [E2|E2].
        -- rewrite (pval_below (S (fst e2)) out' i I1) by lia.
           rewrite (pval_below (S (fst e2)) r2 i Hs2) by lia.
           rewrite !Qplus_0_r. apply vec2_entry_err; exact He.
        -- rewrite (vec2_entry_other _ _ _ _ E2).
           destruct (Nat.eqb_spec (fst e2) i) as [|_]; [congruence|].
           rewrite !Qplus_0_l. apply I5; exact Hi.
      * intros i Hi. rewrite (I6 i Hi), pval_cons.
        destruct (Nat.eqb_spec (fst e2) i); [lia|]. ring.
    + assert (Hsx : psorted_from (fst e2) (e2 :: r2)) by (split; [lia|exact Hs2]).
      assert (Hz : forall i, (i < ind1)%nat ->
        Qabs (pval [] i - mult2 * pval (e2 :: r2) i) <= Qabs mult2 * eps).
      { intros i Hi. rewrite pval_nil, (pval_below (fst e2) (e2 :: r2) i Hsx) by lia.
        setoid_replace (0 - mult2 * 0) with 0 by ring.
        apply Qmult_le_0_compat; [apply Qabs_nonneg|exact He]. }
      destruct (Nat.eqb_spec (fst e2) ind1) as [E|E]; injection Hin as <- <- <-.
      * split; [exact I|]. split; [intros x []|].
        split; [rewrite <- E; exact Hs2|]. split.
        { rewrite pval_cons, E, Nat.eqb_refl.
          rewrite (pval_below (S (fst e2)) r2 ind1 Hs2) by lia. ring. }
        split; [exact Hz|].
        intros i Hi. rewrite pval_cons. destruct (Nat.eqb_spec (fst e2) i); [lia|]. ring.
      * split; [exact I|]. split; [intros x []|].
        split; [split; [lia|exact Hs2]|]. split.
        { rewrite (pval_below (fst e2) (e2 :: r2) ind1 Hsx) by lia. ring. }
        split; [exact Hz|]. intros i Hi. reflexivity.
Qed.

Lemma sum_outer_spec mult1 mult2 eps B v1 : forall lo v2,
  0 <= eps -> eps <= B -> Qabs mult2 * eps <= B ->
  psorted_from lo v1 -> psorted_from lo v2 ->
  psorted_from lo (sum_outer mult1 mult2 eps v1 v2) /\ (forall i, Qabs (pval (sum_outer mult1 mult2 eps v1 v2) i
                   - (mult1 * pval v1 i + mult2 * pval v2 i)) <= B).
Proof.
  induction v1 as [|e1 r1 IH]; intros lo v2 He HB HB2 H1 H2; cbn [sum_outer].
  - split; [apply tail_sorted; exact H2|].
    intro i. rewrite pval_nil.
    setoid_replace (mult1 * 0 + mult2 * pval v2 i) with (mult2 * pval v2 i) by ring.
    eapply Qle_trans; [apply tail_err with lo; assumption|exact HB2].
  - destruct H1 as [H1a H1b].
    destruct (sum_inner mult2 eps (fst e1) (mult1 * snd e1) v2) as [[out nv] rest] eqn:E.
    destruct (sum_inner_spec _ _ _ _ _ _ _ _ _ He H2 E) as (I1 & I2 & I3 & I4 & I5 & I6).
    destruct (IH (S (fst e1)) rest He HB HB2 H1b I3) as [J1 J2].
    set (mid := if isZero nv eps then [] else [(fst e1, nv)]).
    assert (M1 : psorted_from (fst e1) mid).
    { unfold mid. destruct (isZero nv eps); cbn; auto. }
    assert (M2 : idx_below (S (fst e1)) mid).
    { unfold mid. destruct (isZero nv eps); intros x Hx; cbn in Hx; [tauto|].
      destruct Hx as [<-|[]]. cbn. lia. }
    split.
    + apply psorted_app with (fst e1); [exact I1|exact I2| |exact H1a].
      apply psorted_app with (S (fst e1)); [exact M1|exact M2|exact J1|lia].
    + intro i. rewrite !pval_app.
      destruct (lt_eq_lt_dec i (fst e1)) as [[Hi|Hi]|Hi].
      * rewrite (pval_below (fst e1) mid i M1) by exact Hi.
        rewrite (pval_below (S (fst e1)) _ i J1) by lia.
        rewrite pval_cons. destruct (Nat.eqb_spec (fst e1) i); [lia|].
        rewrite (pval_below (S (fst e1)) r1 i H1b) by lia.
        setoid_replace (pval out i + (0 + 0) - (mult1 * (0 + 0) + mult2 * pval v2 i))
          with (pval out i - mult2 * pval v2 i) by ring.
        eapply Qle_trans; [apply I5; exact Hi|exact HB2].
      * subst i. rewrite (pval_idx_below (fst e1) out (fst e1) I2) by lia.
        rewrite (pval_below (S (fst e1)) _ (fst e1) J1) by lia.
        rewrite pval_cons, Nat.eqb_refl.
        rewrite (pval_below (S (fst e1)) r1 (fst e1) H1b) by lia.
        unfold mid. destruct (isZero nv eps) eqn:Z.
        -- apply isZero_iff in Z. rewrite pval_nil.
           assert (HH : Qabs (0 + (0 + 0) - (mult1 * (snd e1 + 0) + mult2 * pval v2 (fst e1))) == Qabs nv).
           { rewrite I4. rewrite <- Qabs_opp. apply Qabs_wd. ring. }
           rewrite HH. lra.
        -- rewrite pval_cons, pval_nil. cbn [fst snd]. rewrite Nat.eqb_refl.
           assert (HH : 0 + (nv + 0 + 0) - (mult1 * (snd e1 + 0) + mult2 * pval v2 (fst e1)) == 0).
           { rewrite I4. ring. }
           rewrite HH. apply Qle_trans with eps; [exact He|exact HB].
      * rewrite (pval_idx_below (fst e1) out i I2) by lia.
        rewrite (pval_idx_below (S (fst e1)) mid i M2) by lia.
        rewrite pval_cons. destruct (Nat.eqb_spec (fst e1) i); [lia|].
        specialize (J2 i). rewrite (I6 i Hi) in J2.
        assert (HH : 0 + (0 + pval (sum_outer mult1 mult2 eps r1 rest) i)
                     - (mult1 * (0 + pval r1 i) + mult2 * pval v2 i) ==
                     pval (sum_outer mult1 mult2 eps r1 rest) i - (mult1 * pval r1 i + mult2 * pval v2 i)) by ring.
        rewrite HH. exact J2.
Qed.

Lemma map_scale_sorted (m : Q) lo v :
  psorted_from lo v -> psorted_from lo (map (fun e : nat * Q => (fst e, m * snd e)) v).
Proof. revert lo. induction v as [|e v IH]; intros lo H; cbn; auto. destruct H. split; auto. Qed.

Lemma map_scale_pval (m : Q) v i :
  pval (map (fun e : nat * Q => (fst e, m * snd e)) v) i == m * pval v i.
Proof.
  induction v as [|e v IH]; cbn [map]; [rewrite !pval_nil; ring|].
  rewrite !pval_cons, IH. cbn [fst snd]. destruct (Nat.eqb (fst e) i); ring.
Qed.
