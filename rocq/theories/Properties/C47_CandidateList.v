(** C47, the candidate list: what is handed to strong branching. *)
From Verif Require Import Prelude Model.CandidateList Proofs.CandidateListP.
From Coq Require Import Permutation Sorted Qminmax.

Definition dobj : lobj := {| lo_inf := Some 0; lo_prio := 0; lo_col := 0; lo_up := 0; lo_dn := 0; lo_uptot := 0; lo_upnum := 0; lo_dntot := 0; lo_dnnum := 0 |}.
(** Object [x] of the solver, its priority, and the estimate of its merit; the unsatisfied objects. *)
Definition prio_of (objs : list lobj) (x : nat) : Z := lo_prio (nth x objs dobj).
Definition merit_of (method : Z) (trust : nat) (objs : list lobj) (x : nat) : Q := lo_value method trust objs (nth x objs dobj).
Definition unsat (o : lobj) : bool := match lo_inf o with Some q => Qltb 0 q | None => true end.
Definition unsatisfied (objs : list lobj) : list nat := filter (fun x => unsat (nth x objs dobj)) (seq 0 (length objs)).
(** CoinSort_2: some permutation sorted by the key. *)
Definition sorts (srt : list (Q * option nat) -> list (Q * option nat)) : Prop :=
  forall l, Permutation l (srt l) /\ StronglySorted (fun a b => fst a <= fst b) (srt l).

Lemma filter_seq_S (p : nat -> bool) i : filter p (seq 0 (S i)) = filter p (seq 0 i) ++ (if p i then [i] else []).
Proof. rewrite seq_S, filter_app. cbn [filter Nat.add]. destruct (p i); reflexivity. Qed.

Lemma flt_le {A} (p : A -> bool) l : (length (filter p l) <= length l)%nat.
Proof. induction l as [|x l IH]; cbn [filter length]; [lia|]. destruct (p x); cbn [length]; lia. Qed.

Section Run.
Variable (method : Z) (trust ns : nat) (objs : list lobj).
Let n := length objs.
Let val := merit_of method trust objs.
Let pr := prio_of objs.
Hypothesis NS : (1 <= ns)%nat.
Hypothesis PR : forall o, In o objs -> (lo_prio o <= COIN_INT_MAX)%Z.
Definition all_positive : Prop := forall x, In x (unsatisfied objs) -> 0 < val x.
Lemma loop_inv : forall rest pre s ids f O, objs = pre ++ rest -> inv val pr ns n all_positive s ids f O ->
  Permutation (ids ++ O) (filter (fun x => unsat (nth x objs dobj)) (seq 0 (length pre))) -> (ids = [] -> O = []) ->
  exists s' b, list_loop (lo_value method trust objs) s (length pre) rest = Some (s', b) /\
    (b = true <-> forall o, In o rest -> lo_inf o <> None) /\
    (b = true -> exists ids' f' O', inv val pr ns n all_positive s' ids' f' O' /\ Permutation (ids' ++ O') (unsatisfied objs) /\ (ids' = [] -> O' = [])).
Proof.
  induction rest as [|o rest IH]; intros pre s ids f O EO IV PM NE; cbn [list_loop].
  - exists s, true. split; [reflexivity|]. split; [split; [intros _ ? []|reflexivity]|]. intros _. exists ids, f, O. split; [exact IV|]. split; [|exact NE].
    unfold unsatisfied. rewrite app_nil_r in EO. replace (length objs) with (length pre) by (rewrite EO; reflexivity). exact PM.
  - assert (EN : nth (length pre) objs dobj = o) by (rewrite EO, app_nth2, Nat.sub_diag by lia; reflexivity).
    assert (EO' : objs = (pre ++ [o]) ++ rest) by (rewrite <- app_assoc; exact EO).
    assert (LP : length (pre ++ [o]) = S (length pre)) by (rewrite app_length; cbn [length]; lia).
    destruct (lo_inf o) as [q|] eqn:EI.
    2:{ exists s, false. split; [reflexivity|]. split; [|discriminate]. split; [discriminate|]. intro H. destruct (H o (or_introl eq_refl) EI). }
    assert (US : unsat (nth (length pre) objs dobj) = Qltb 0 q) by (rewrite EN; unfold unsat; rewrite EI; reflexivity).
    destruct (Qltb 0 q) eqn:EQ.
    + assert (Lf : (1 <= f)%nat).
      { pose proof (sh_n _ _ _ _ _ _ _ (iv_shape _ _ _ _ _ _ _ _ _ IV)) as HN. apply Permutation_length in PM. rewrite app_length in PM.
        assert (K : (length (filter (fun x => unsat (nth x objs dobj)) (seq 0 (length pre))) <= length (seq 0 (length pre)))%nat) by apply flt_le.
        rewrite seq_length in K. assert (n = (length pre + S (length rest))%nat) by (unfold n; rewrite EO, app_length; reflexivity). lia. }
      destruct (step_inv val pr ns n NS all_positive s ids f O (length pre) IV Lf) as (s' & ids' & f' & O' & E & IV' & PM' & NE').
      * unfold pr, prio_of. rewrite EN. apply PR. rewrite EO. apply in_or_app. right. left. reflexivity.
      * intro AP. apply AP. apply filter_In. split; [apply in_seq; split; [lia|]; rewrite EO, app_length; cbn [length]; lia|exact US].
      * unfold pr, prio_of, val, merit_of in E. rewrite EN in E. rewrite E. rewrite <- LP.
        destruct (IH (pre ++ [o]) s' ids' f' O' EO' IV') as (s2 & b & E2 & B & K).
        -- rewrite LP, filter_seq_S, US. rewrite PM'. rewrite PM. apply Permutation_cons_append.
        -- intro Z. destruct (NE' Z).
        -- exists s2, b. split; [exact E2|]. split; [|exact K]. rewrite B. split; [intros H x [<-|Hx]; [congruence|apply H, Hx]|intros H x Hx; apply H; right; exact Hx].
    + rewrite <- LP. destruct (IH (pre ++ [o]) s ids f O EO' IV) as (s2 & b & E2 & B & K).
      * rewrite LP, filter_seq_S, US, app_nil_r. exact PM.
      * exact NE.
      * exists s2, b. split; [exact E2|]. split; [|exact K]. rewrite B. split; [intros H x [<-|Hx]; [congruence|apply H, Hx]|intros H x Hx; apply H; right; exact Hx].
Qed.
Lemma start_inv : inv val pr ns n all_positive {| ls_list := repeat None n; ls_useful := repeat 0 n; ls_put := n; ls_max := Nat.min ns n;
               ls_prio := COIN_INT_MAX; ls_check := ChkLow; ls_idx := 0; ls_u := 0 |} [] n [].
Proof.
  split; cbn [ls_list ls_useful ls_put ls_max ls_prio ls_check ls_idx ls_u].
  - split; cbn [ls_list ls_useful ls_put ls_max ls_prio ls_check ls_idx ls_u length]; try reflexivity; try lia; [unfold layout; cbn [map app]; rewrite app_nil_r; reflexivity|apply repeat_length].
  - reflexivity.
  - intros x [].
  - intros x [].
  - intros _ o x [].
  - left. auto.
Qed.
End Run.

(** The list is a rearrangement of the unsatisfied objects; those on the list for strong branching come
    first, at most as many as asked for and at least one, are of the best priority, and are sorted by
    decreasing estimated merit.  When the estimates are positive they are as many as can be and none of the
    same priority left out has larger merit. *)
Theorem candidate_list : forall srt method trust ns objs, sorts srt -> (1 <= ns)%nat ->
  (forall o, In o objs -> lo_inf o <> None /\ (lo_prio o <= COIN_INT_MAX)%Z) ->
  exists listed others tail,
    setupList srt method trust ns objs = Some (Z.of_nat (length (unsatisfied objs)), length listed, map Some (listed ++ others) ++ tail) /\
    Permutation (listed ++ others) (unsatisfied objs) /\
    (length listed <= ns)%nat /\ (unsatisfied objs <> [] -> listed <> []) /\
    (forall x y, In x listed -> In y (unsatisfied objs) -> (prio_of objs x <= prio_of objs y)%Z) /\
    StronglySorted (fun x y => merit_of method trust objs y <= merit_of method trust objs x) listed /\
    ((forall x, In x (unsatisfied objs) -> 0 < merit_of method trust objs x) ->
       forall x y, In x listed -> In y others -> prio_of objs y = prio_of objs x ->
         merit_of method trust objs y <= merit_of method trust objs x /\ length listed = ns).
Proof.
  intros srt method trust ns objs SRT NS HO.
  set (val := merit_of method trust objs). set (pr := prio_of objs). set (n := length objs). set (pos := all_positive method trust objs).
  destruct (loop_inv method trust ns objs NS (fun o Ho => proj2 (HO o Ho)) objs [] _ [] n [] eq_refl (start_inv method trust ns objs NS)) as (s & b & E & B & K);
    [constructor|reflexivity|]. cbn [length] in E.
  assert (b = true) as -> by (apply B; intros o Ho; apply HO, Ho).
  destruct (K eq_refl) as (ids & f & O & IV & PM & NE). clear K B.
  pose proof (iv_shape _ _ _ _ _ _ _ _ _ IV) as SH. destruct SH as [H1 H2 H3 H4 H5 H6 H7]. fold val in H2. fold n in H3, H4.
  assert (LU : ls_u s = length (unsatisfied objs)) by (rewrite (iv_u _ _ _ _ _ _ _ _ _ IV); apply Permutation_length in PM; rewrite app_length in PM; exact PM).
  assert (CP : compact (ls_list s) (ls_useful s) (seq 0 (Nat.min (ls_max s) (ls_put s))) 0 =
               Some (layout ids f O, map Qopp (map val ids) ++ skipn (length ids) (ls_useful s), length ids)).
  { rewrite H1. replace (Nat.min (ls_max s) (ls_put s)) with (length ids + (Nat.min (ls_max s) (ls_put s) - length ids))%nat by lia. rewrite seq_app. cbn [Nat.add].
    rewrite <- (firstn_skipn (length ids) (ls_useful s)) at 1. rewrite H2.
    apply (compact_layout ids [] f O [] (map val ids)); try reflexivity; [rewrite map_length; reflexivity|].
    intros j Hj. apply in_seq in Hj. cbn [length Nat.add]. rewrite map_length, skipn_length. lia. }
  unfold setupList. cbv zeta. rewrite E, CP. fold n. destruct (Nat.eqb_spec (length ids) 0) as [Z|Z].
  { destruct ids; [|discriminate]. rewrite (NE eq_refl) in *. exists [], [], (layout [] f []). split; [rewrite LU; reflexivity|]. split; [exact PM|]. split; [cbn [length]; lia|].
    split; [intro H; apply Permutation_nil in PM; rewrite PM in H; congruence|]. split; [intros ? ? []|]. split; [constructor|]. intros _ ? ? []. }
  assert (F1 : firstn (length ids) (layout ids f O) = map Some ids).
  { unfold layout. rewrite firstn_app, map_length, Nat.sub_diag. cbn [firstn]. rewrite app_nil_r. apply firstn_all2. rewrite map_length. lia. }
  assert (F2 : skipn (length ids) (layout ids f O) = repeat None f ++ map Some O).
  { unfold layout. rewrite skipn_app, map_length, Nat.sub_diag. rewrite skipn_all2 by (rewrite map_length; lia). reflexivity. }
  assert (F3 : firstn (length ids) (map Qopp (map val ids) ++ skipn (length ids) (ls_useful s)) = map (fun x => - val x) ids).
  { rewrite firstn_app, !map_length, Nat.sub_diag. cbn [firstn]. rewrite app_nil_r, map_map. apply firstn_all2. rewrite map_length. lia. }
  rewrite F1, F2, F3. clear F1 F2 F3.
  assert (CB : combine (map (fun x => - val x) ids) (map Some ids) = map (fun x => (- val x, Some x)) ids).
  { clear. induction ids as [|x l IH]; [reflexivity|]. cbn [map combine]. rewrite IH. reflexivity. }
  rewrite CB. clear CB. destruct (SRT (map (fun x => (- val x, Some x)) ids)) as [SP SS].
  assert (LS : exists listed, Permutation ids listed /\ srt (map (fun x => (- val x, Some x)) ids) = map (fun x => (- val x, Some x)) listed).
  { symmetry in SP. destruct (Permutation_map_inv _ _ SP) as (l & El & Pl). exists l. split; [exact Pl|exact El]. }
  destruct LS as (listed & PL & ES). rewrite ES in *. rewrite map_map. cbn [snd]. change (fun x : nat => Some x) with (@Some nat).
  assert (LL : length ids = length listed) by (apply Permutation_length, PL).
  destruct (move_layout O (map Some listed) (repeat None f) (length ids)) as (G & EM); [rewrite map_length; exact LL|].
  rewrite map_length, repeat_length, <- LL in EM. rewrite H5. replace (n - (length ids + f))%nat with (length O) by lia. rewrite EM, (iv_u _ _ _ _ _ _ _ _ _ IV), Nat.eqb_refl.
  destruct (Nat.eqb_spec ns 0); [lia|].
  assert (PM2 : Permutation (listed ++ O) (unsatisfied objs)) by (rewrite <- PL; exact PM).
  exists listed, O, G. split; [rewrite <- LU, (iv_u _ _ _ _ _ _ _ _ _ IV), map_app, LL, <- app_assoc; reflexivity|].
  split; [exact PM2|]. split; [lia|]. split; [intros _ ->; cbn [length] in LL; lia|].
  assert (IL : forall x, In x listed -> In x ids) by (intros x Hx; apply (Permutation_in x (Permutation_sym PL)), Hx).
  split; [|split].
  - intros x y Hx Hy. apply (Permutation_in y (Permutation_sym PM)) in Hy. unfold pr. rewrite (iv_ids _ _ _ _ _ _ _ _ _ IV x (IL x Hx)).
    apply in_app_or in Hy. destruct Hy as [Hy|Hy]; [rewrite (iv_ids _ _ _ _ _ _ _ _ _ IV y Hy); lia|apply (iv_O _ _ _ _ _ _ _ _ _ IV y Hy)].
  - clear - SS. fold val. induction listed as [|x l IH]; [constructor|]. cbn [map] in SS. inversion SS as [|? ? S1 S2]; subst. constructor; [apply IH, S1|].
    apply Forall_forall. intros y Hy. rewrite Forall_forall in S2. specialize (S2 (- val y, Some y) (in_map (fun x => (- val x, Some x)) _ _ Hy)). cbn [fst] in S2. lra.
  - intros HP x y Hx Hy EPr. unfold pr in EPr. assert (AP : pos) by exact HP. rewrite (iv_ids _ _ _ _ _ _ _ _ _ IV x (IL x Hx)) in EPr.
    split; [apply (iv_top _ _ _ _ _ _ _ _ _ IV AP y x Hy (IL x Hx) EPr)|].
    destruct (iv_ctl _ _ _ _ _ _ _ _ _ IV) as [(E0 & _)|[(_ & _ & _ & C)|(w & _ & _ & _ & _ & [C|[_ C]])]]; [rewrite E0 in Z; destruct (Z eq_refl)|destruct (C AP y Hy EPr)|lia|destruct (C AP y Hy EPr)].
Qed.
Print Assumptions candidate_list.

(** An object that says it is infeasible: -1, nothing on the list (and no assertion fails before). *)
Theorem candidate_list_infeasible : forall srt method trust ns objs, (1 <= ns)%nat ->
  (forall o, In o objs -> (lo_prio o <= COIN_INT_MAX)%Z) -> (exists o, In o objs /\ lo_inf o = None) ->
  exists L, setupList srt method trust ns objs = Some ((-1)%Z, O, L).
Proof.
  intros srt method trust ns objs NS HO (o & Ho & Hi).
  destruct (loop_inv method trust ns objs NS HO objs [] _ [] (length objs) [] eq_refl (start_inv method trust ns objs NS)) as (s & b & E & B & _); [constructor|reflexivity|].
  cbn [length] in E. assert (b = false) as -> by (destruct b; [destruct (proj1 B eq_refl o Ho Hi)|reflexivity]).
  unfold setupList. rewrite E. exists (ls_list s). reflexivity.
Qed.
Print Assumptions candidate_list_infeasible.

(** The estimates are positive for the default methods when pseudo-costs and the objects' own estimates are
    (so the last part of [candidate_list] applies). *)
Theorem default_merit_positive : forall method trust objs, (0 <= method <= 5)%Z ->
  (forall o, In o objs -> 0 < lo_up o /\ 0 < lo_dn o /\ 0 <= lo_uptot o /\ 0 <= lo_dntot o) ->
  forall o, In o objs -> 0 < lo_value method trust objs o.
Proof.
  intros method trust objs HM HO o Hin.
  assert (SM : forall (g : lobj -> Q) l a, 0 <= a -> (forall x, In x l -> 0 <= g x) -> 0 <= fold_left (fun a x => a + g x) l a).
  { intros g. induction l as [|x l IH]; intros a Ha Hl; [exact Ha|]. cbn [fold_left]. apply IH; [|intros; apply Hl; right; assumption]. specialize (Hl x (or_introl eq_refl)). lra. }
  assert (QN : forall k, 0 <= Qn k) by (intro k; unfold Qn; change 0 with (inject_Z 0); rewrite <- Zle_Qle; lia).
  assert (DV : forall a b, 0 < a -> 0 < b -> 0 < a / b) by (intros a b Ha Hb; apply Qlt_shift_div_l; [exact Hb|lra]).
  assert (M1 : 0 < upMultiplier objs).
  { unfold upMultiplier, Qsuml. apply DV.
    - pose proof (SM lo_uptot objs 0 (Qle_refl 0) (fun x Hx => proj1 (proj2 (proj2 (HO x Hx))))). lra.
    - pose proof (SM (fun o => Qn (lo_upnum o)) objs 0 (Qle_refl 0) (fun x _ => QN _)) as K. cbv beta in K. lra. }
  assert (M2 : 0 < dnMultiplier objs).
  { unfold dnMultiplier, Qsuml. apply DV.
    - pose proof (SM lo_dntot objs 0 (Qle_refl 0) (fun x Hx => proj2 (proj2 (proj2 (HO x Hx))))). lra.
    - pose proof (SM (fun o => Qn (lo_dnnum o)) objs 0 (Qle_refl 0) (fun x _ => QN _)) as K. cbv beta in K. lra. }
  assert (MD : forall mult est tot num, 0 < mult -> 0 < est -> 0 <= tot -> 0 < modified trust mult est tot num).
  { intros mult est tot num H1 H2 H3. unfold modified. cbv zeta.
    assert (P : 0 < if Nat.eqb num 0 then est * mult else est * (tot + (1 # 1000000000000000000000000000000)) / Qn num).
    { destruct (Nat.eqb_spec num 0) as [Z|Z].
      - apply Qmult_lt_0_compat; assumption.
      - apply DV; [apply Qmult_lt_0_compat; [assumption|]; assert (0 < 1 # 1000000000000000000000000000000) by reflexivity; lra|].
        unfold Qn. change 0 with (inject_Z 0). rewrite <- Zlt_Qlt. lia. }
    destruct (Nat.ltb num trust); [|exact P]. apply Qmult_lt_0_compat; [exact P|]. apply DV; [pose proof (QN trust)|pose proof (QN num)]; lra. }
  destruct (HO o Hin) as (U & D & UT & DT). unfold lo_value, calculateValue.
  destruct (Z.eqb_spec method 6); [lia|]. destruct (Z.ltb_spec method 0); [lia|]. cbv zeta.
  set (dn := modified trust (dnMultiplier objs) _ _ _). set (up := modified trust (upMultiplier objs) _ _ _).
  assert (Pd : 0 < dn) by (apply MD; assumption). assert (Pu : 0 < up) by (apply MD; assumption).
  assert (Pmn : 0 < Qmn up dn) by (unfold Qmn; destruct (Qltb up dn); assumption). assert (Pmx : 0 < Qmx up dn) by (unfold Qmx; destruct (Qltb dn up); assumption).
  unfold SAVED_MAXMIN_CRITERION. destruct ((method =? 2)%Z || (method =? 4)%Z); [lra|]. destruct (method =? 5)%Z; lra.
Qed.
Print Assumptions default_merit_positive.

(** What the estimate of the merit is: each object's own estimate for a direction, scaled by the average change seen for
    that object and direction (over all objects if it has not been tried), and enlarged while it has been tried fewer
    than [trust] times; the two directions are weighed as in strong branching, the smaller one most. *)
Definition scaled (trust : nat) (all_change all_tries own change : Q) (tries : nat) : Q :=
  own * (match tries with O => (1 + all_change) / (1 + all_tries) | S _ => (change + (1 # 10 ^ 30)) / inject_Z (Z.of_nat tries) end)
      * (if le_lt_dec trust tries then 1 else (inject_Z (Z.of_nat trust) + 1) / (inject_Z (Z.of_nat tries) + 1)).
Definition up_merit (trust : nat) (objs : list lobj) (o : lobj) : Q :=
  scaled trust (Qsumf lo_uptot objs) (Qsumf (fun o => inject_Z (Z.of_nat (lo_upnum o))) objs) (lo_up o) (lo_uptot o) (lo_upnum o).
Definition dn_merit (trust : nat) (objs : list lobj) (o : lobj) : Q :=
  scaled trust (Qsumf lo_dntot objs) (Qsumf (fun o => inject_Z (Z.of_nat (lo_dnnum o))) objs) (lo_dn o) (lo_dntot o) (lo_dnnum o).
Lemma Qsuml_eq {A} (f : A -> Q) l : Qsuml f l == Qsumf f l.
Proof.
  unfold Qsuml. assert (K : forall l a, fold_left (fun a x => a + f x) l a == a + Qsumf f l).
  { clear. induction l as [|x l IH]; intro a; cbn [fold_left]; [rewrite Qsumf_nil; lra|]. rewrite IH, Qsumf_cons. lra. }
  rewrite K. lra.
Qed.
Lemma scaled_eq trust m own change tries ac at_ : m == (1 + ac) / (1 + at_) -> modified trust m own change tries == scaled trust ac at_ own change tries.
Proof.
  intro E. unfold modified, scaled. cbv zeta. change (1 # 10 ^ 30) with (1 # 1000000000000000000000000000000).
  assert (F : (if Nat.eqb tries 0 then own * m else own * (change + (1 # 1000000000000000000000000000000)) / Qn tries) ==
              own * (match tries with O => (1 + ac) / (1 + at_) | S _ => (change + (1 # 1000000000000000000000000000000)) / inject_Z (Z.of_nat tries) end)).
  { destruct tries as [|k]; cbn [Nat.eqb]; [rewrite E; reflexivity|]. unfold Qn, Qdiv. rewrite Qmult_assoc. reflexivity. }
  destruct (le_lt_dec trust tries) as [L|L]; [apply Nat.ltb_ge in L|apply Nat.ltb_lt in L]; rewrite L; rewrite F; [rewrite Qmult_1_r|]; reflexivity.
Qed.
Theorem merit_estimate : forall trust objs x, let o := nth x objs dobj in
  let u := up_merit trust objs o in let d := dn_merit trust objs o in
  (forall m, In m [0; 1; 3]%Z -> merit_of m trust objs x == (85 # 100) * Qmin u d + (15 # 100) * Qmax u d) /\
  (forall m, In m [2; 4]%Z -> merit_of m trust objs x == Qmin u d) /\
  merit_of 5 trust objs x == Qmax u d /\
  merit_of 6 trust objs x == - inject_Z (Z.of_nat (lo_col o)) /\
  (forall m, (0 <= m)%Z -> m <> 6%Z -> merit_of (- m - 1) trust objs x == - merit_of m trust objs x).
Proof.
  intros trust objs x o u d. unfold merit_of. fold o.
  assert (MI : forall a b a' b', a == a' -> b == b' -> Qmn a b == Qmin a' b').
  { intros a b a' b' E1 E2. unfold Qmn. destruct (Qltb_reflect a b) as [H|H]; [rewrite Q.min_l by lra|apply Qnot_lt_le in H; rewrite Q.min_r by lra]; assumption. }
  assert (MA : forall a b a' b', a == a' -> b == b' -> Qmx a b == Qmax a' b').
  { intros a b a' b' E1 E2. unfold Qmx. destruct (Qltb_reflect b a) as [H|H]; [rewrite Q.max_l by lra|apply Qnot_lt_le in H; rewrite Q.max_r by lra]; assumption. }
  assert (EU : modified trust (upMultiplier objs) (lo_up o) (lo_uptot o) (lo_upnum o) == u).
  { apply scaled_eq. unfold upMultiplier. rewrite !Qsuml_eq. reflexivity. }
  assert (ED : modified trust (dnMultiplier objs) (lo_dn o) (lo_dntot o) (lo_dnnum o) == d).
  { apply scaled_eq. unfold dnMultiplier. rewrite !Qsuml_eq. reflexivity. }
  unfold lo_value. set (dn := modified _ (dnMultiplier objs) _ _ _) in *. set (up := modified _ (upMultiplier objs) _ _ _) in *.
  assert (E1 := MI up dn u d EU ED). assert (E2 := MA up dn u d EU ED).
  split; [|split; [|split; [|split]]].
  - intros m Hm. rewrite <- E1, <- E2. destruct Hm as [<-|[<-|[<-|[]]]]; unfold calculateValue, SAVED_MAXMIN_CRITERION; cbn [Z.eqb Z.ltb Z.compare orb Pos.eqb]; cbv zeta; ring.
  - intros m Hm. rewrite <- E1. destruct Hm as [<-|[<-|[]]]; unfold calculateValue; cbn [Z.eqb Z.ltb Z.compare orb Pos.eqb]; cbv zeta; ring.
  - rewrite <- E2. unfold calculateValue; cbn [Z.eqb Z.ltb Z.compare orb Pos.eqb]; cbv zeta; ring.
  - reflexivity.
  - intros m Hm N. unfold calculateValue. destruct (Z.eqb_spec m 6); [contradiction|]. destruct (Z.eqb_spec (- m - 1) 6); [lia|].
    destruct (Z.ltb_spec (- m - 1) 0); [|lia]. destruct (Z.ltb_spec m 0); [lia|]. replace (- (- m - 1 + 1))%Z with m by lia. cbv zeta. ring.
Qed.
Print Assumptions merit_estimate.

(** Refuted: the most promising candidates are listed, for methods whose values are not positive (6 and the
    negative ones): the value of an empty slot is taken as 0, so after the first object none is listed. *)
Definition mkobj (col : nat) (up dn : Q) : lobj := {| lo_inf := Some (1 # 2); lo_prio := 1; lo_col := col; lo_up := up; lo_dn := dn; lo_uptot := 0; lo_upnum := 0; lo_dntot := 0; lo_dnnum := 0 |}.
Fixpoint qinsert (x : Q * option nat) (l : list (Q * option nat)) : list (Q * option nat) :=
  match l with [] => [x] | y :: r => if Qle_bool (fst x) (fst y) then x :: l else y :: qinsert x r end.
Definition qsort (l : list (Q * option nat)) : list (Q * option nat) := fold_right qinsert [] l.
Lemma qsort_sorts : sorts qsort.
Proof.
  assert (IP : forall x l, Permutation (x :: l) (qinsert x l)).
  { intros x. induction l as [|y r IH]; cbn [qinsert]; [reflexivity|]. destruct (Qle_bool (fst x) (fst y)); [reflexivity|]. rewrite perm_swap. constructor. exact IH. }
  intro l. induction l as [|x l [IP1 IS]]; [split; constructor|]. cbn [qsort fold_right]. fold (qsort l). split; [rewrite IP1 at 1; apply IP|].
  clear IP1. induction (qsort l) as [|y r IHr]; cbn [qinsert]; [constructor; constructor|]. inversion IS as [|? ? S1 S2]; subst. destruct (Qle_bool (fst x) (fst y)) eqn:E.
  - apply Qle_bool_iff in E. constructor; [exact IS|]. constructor; [exact E|]. rewrite Forall_forall in *. intros z Hz. specialize (S2 z Hz). lra.
  - apply Qle_bool_gt in E. constructor; [apply IHr, S1|]. rewrite Forall_forall in *. intros z Hz. apply (Permutation_in z (Permutation_sym (IP x r))) in Hz. destruct Hz as [<-|Hz]; [lra|apply S2, Hz].
Qed.
Theorem nonpositive_values_refuted : exists objs listed,
  setupList qsort (-2) 0 3 objs = Some (3%Z, length listed, map Some (listed ++ [2; 1]%nat) ++ []) /\
  length listed = 1%nat /\ forall x, In x listed -> merit_of (-2) 0 objs x < merit_of (-2) 0 objs 1 /\ merit_of (-2) 0 objs x < merit_of (-2) 0 objs 2.
Proof.
  exists [mkobj 0 9 9; mkobj 1 1 1; mkobj 2 2 2], [0%nat]. split; [vm_compute; reflexivity|]. split; [reflexivity|]. intros x [<-|[]]. split; vm_compute; reflexivity.
Qed.
Print Assumptions nonpositive_values_refuted.

(** Example: five objects, priorities 2 1 1 1 1, one satisfied; two asked for: the two best of priority 1. *)
Example candidate_list_meets :
  let objs := [ {| lo_inf := Some 1; lo_prio := 2; lo_col := 0; lo_up := 100; lo_dn := 100; lo_uptot := 0; lo_upnum := 0; lo_dntot := 0; lo_dnnum := 0 |};
                mkobj 1 1 1; mkobj 2 5 5; {| lo_inf := Some 0; lo_prio := 1; lo_col := 3; lo_up := 1; lo_dn := 1; lo_uptot := 0; lo_upnum := 0; lo_dntot := 0; lo_dnnum := 0 |}; mkobj 4 7 7 ] in
  setupList qsort 0 0 2 objs = Some (4%Z, 2%nat, map Some [4; 2; 1; 0]%nat ++ [Some 0%nat]) /\ unsatisfied objs = [0; 1; 2; 4]%nat /\ sorts qsort.
Proof. cbv zeta. split; [vm_compute; reflexivity|]. split; [vm_compute; reflexivity|exact qsort_sorts]. Qed.
