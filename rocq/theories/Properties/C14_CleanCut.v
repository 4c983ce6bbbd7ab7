(** C14: cuts accepted by the cleaning filter meet the numerical limits; rejected ones carry the code of
    the first failing test. *)
From Verif Require Import Prelude Model.Tolerance Model.LP Model.CutHelper Spec.LPSpec
  Proofs.ToleranceP Proofs.CutHelperP.

(** ** The advertised limits, stated on the cut. *)
Definition support_ok (n cols : nat) (thresh maxabs maxrel : Q) : Prop :=
  inject_Z (Z.of_nat n) <= thresh \/
  (inject_Z (Z.of_nat n) <= maxabs /\ inject_Z (Z.of_nat n) <= maxrel * inject_Z (Z.of_nat cols)).

(** [x] violates the cut by at least [d] (for d > 0). *)
Definition violated_by (c : cut) (x : nat -> Q) (d : Q) : Prop := pdot (crow c) x <= crhs c - d.

(** Any two non-negligible coefficients (and the right-hand side against any coefficient) differ in
    magnitude by a factor less than [D]. *)
Definition dynamism_ok (c : cut) (EPS D : Q) : Prop :=
  (exists e, In e (crow c) /\ EPS <= Qabs (snd e)) /\
  (forall e f, In e (crow c) -> In f (crow c) -> EPS <= Qabs (snd f) -> Qabs (snd e) < D * Qabs (snd f)) /\
  (forall f, In f (crow c) -> EPS <= Qabs (snd f) -> Qabs (crhs c) < D * Qabs (snd f)).

Lemma badSupport_spec n cols t a r : badSupport n cols t a r = false <-> support_ok n cols t a r.
Proof.
  unfold badSupport, support_ok. rewrite andb_false_iff, orb_false_iff, !Qltb_ge. tauto.
Qed.

Lemma minmax_spec EPS : 0 < EPS -> forall v mn mx mn' mx',
  0 <= mx -> (mn == 0 \/ (EPS <= mn /\ mn <= mx)) -> minmax_loop EPS v mn mx = (mn', mx') ->
  mx <= mx' /\ (mn' == 0 \/ (EPS <= mn' /\ mn' <= mx')) /\ (EPS <= mn -> EPS <= mn' /\ mn' <= mn) /\
  (forall e, In e v -> EPS <= Qabs (snd e) -> EPS <= mn' /\ mn' <= Qabs (snd e) /\ Qabs (snd e) <= mx') /\
  (mn' == 0 -> mx' = mx) /\
  (EPS <= mn' -> EPS <= mn \/ exists e, In e v /\ EPS <= Qabs (snd e)).
Proof.
  intro He. induction v as [|e v IH]; intros mn mx mn' mx' Hx Hn H; cbn [minmax_loop] in H.
  - inversion H; subst. split; [lra|]. split; [exact Hn|]. split; [intro; split; [assumption|lra]|].
    split; [intros e []|]. split; [reflexivity|auto].
  - destruct (isZero (Qabs (snd e)) EPS) eqn:Z.
    + apply isZero_lt in Z. rewrite Qabs_pos in Z by apply Qabs_nonneg.
      destruct (IH _ _ _ _ Hx Hn H) as (A & B & C & D & E & F).
      split; [exact A|]. split; [exact B|]. split; [exact C|]. split.
      { intros f [<-|Hf] Hb; [exfalso; lra|apply D; assumption]. }
      split; [exact E|]. intro Hm. destruct (F Hm) as [F'|(f & F1 & F2)]; [auto|].
      right. exists f. split; [right; exact F1|exact F2].
    + apply isZero_ge in Z. rewrite Qabs_pos in Z by apply Qabs_nonneg.
      set (a := Qabs (snd e)) in *.
      set (mn1 := if Qltb a mn || isZero mn EPS then a else mn) in *.
      set (mx1 := if Qltb mx a then a else mx) in *.
      assert (X1 : mx <= mx1 /\ a <= mx1) by (unfold mx1; qcase1; split; lra).
      assert (N1 : EPS <= mn1 /\ mn1 <= a /\ (EPS <= mn -> mn1 <= mn)).
      { unfold mn1. destruct (Qltb_reflect a mn) as [L|L]; cbn [orb]; [repeat split; lra|].
        destruct (isZero mn EPS) eqn:Z2.
        - apply isZero_lt in Z2. split; [exact Z|]. split; [lra|]. intro Q.
          rewrite Qabs_pos in Z2 by lra. exfalso; lra.
        - apply isZero_ge in Z2. destruct Hn as [Hn|[Hn1 Hn2]].
          + rewrite Hn in Z2. change (Qabs 0) with 0 in Z2. exfalso; lra.
          + split; [exact Hn1|]. split; [lra|]. intros; lra. }
      destruct N1 as (N1 & N2 & N3). destruct X1 as [X1 X2].
      assert (Hx1 : 0 <= mx1) by lra.
      destruct (IH mn1 mx1 mn' mx' Hx1 (or_intror (conj N1 (Qle_trans _ _ _ N2 X2))) H) as (A & B & C & D & E & F).
      destruct (C N1) as [C1 C2].
      split; [lra|]. split; [exact B|]. split; [intro Q; specialize (N3 Q); split; lra|]. split.
      { intros f [<-|Hf] Hb; [split; [exact C1|]; fold a; split; lra|apply D; assumption]. }
      split; [intro Q; exfalso; lra|]. intros _. right. exists e. split; [left; reflexivity|exact Z].
Qed.

Lemma badDynamism_sound c mc xc D EPS : 0 < EPS -> 0 <= D -> badDynamism c mc xc D EPS = false ->
  dynamism_ok c EPS (D + EPS).
Proof.
  intros He HD H. unfold badDynamism in H. destruct (minmax_loop EPS (crow c) 0 0) as [mn mx0] eqn:M.
  destruct (minmax_spec EPS He (crow c) 0 0 mn mx0 (Qle_refl 0) (or_introl (Qeq_refl 0)) M) as (A & B & C & E & F & G).
  cbv zeta in H. apply orb_false_iff in H. destruct H as [H _]. apply orb_false_iff in H. destruct H as [H1 H2].
  destruct (Qeq_bool_reflect mn 0) as [Z|Z]; [discriminate|].
  destruct B as [B|[B1 B2]]; [contradiction|].
  set (mx := if Qltb mx0 (Qabs (crhs c)) then Qabs (crhs c) else mx0) in *.
  assert (X : mx0 <= mx /\ Qabs (crhs c) <= mx) by (unfold mx; qcase1; split; lra). destruct X as [X1 X2].
  assert (R : mx < (D + EPS) * mn).
  { assert (L : mx / mn < D + EPS).
    { apply Qnot_le_lt. intro Q. assert (greaterThanVal (mx / mn) D EPS = true) by (apply greaterThanVal_iff; exact Q). congruence. }
    setoid_replace mx with (mx / mn * mn) by (field; lra). apply Qmult_lt_compat_r; lra. }
  assert (Mul : forall f, In f (crow c) -> EPS <= Qabs (snd f) -> mx < (D + EPS) * Qabs (snd f)).
  { intros f Hf Hb. destruct (E f Hf Hb) as (E1 & E2 & E3).
    assert ((D + EPS) * mn <= (D + EPS) * Qabs (snd f)).
    { rewrite !(Qmult_comm (D + EPS)). apply Qmult_le_compat_r; lra. } lra. }
  destruct (G B1) as [G1|(e0 & G1 & G2)]; [exfalso; lra|].
  split; [exists e0; split; assumption|]. split.
  - intros e f He' Hf Hb. pose proof (Mul f Hf Hb) as P.
    destruct (Qlt_le_dec (Qabs (snd e)) EPS) as [L|L].
    + destruct (E f Hf Hb) as (_ & _ & E3). lra.
    + destruct (E e He' L) as (_ & _ & E3). lra.
  - intros f Hf Hb. pose proof (Mul f Hf Hb). lra.
Qed.

Lemma badViolation_spec c norm x a r : badViolation c norm x a r = false -> 0 < a ->
  violated_by c x a /\ violated_by c x (norm * r).
Proof.
  unfold badViolation, violated, violated_by. intros H Ha. apply orb_false_iff in H. destruct H as [H1 H2].
  apply negb_false_iff, greaterThanVal_iff in H1. apply negb_false_iff, greaterThanVal_iff in H2.
  destruct (Qltb_reflect (pdot (crow c) x) (crhs c)); split; lra.
Qed.

(** The cut handed back is always the cleaned one, and an accepted cut meets all limits. *)
Theorem clean_cut_accepted :
  forall c P sol norm EC MD ST SA SR VA VR MC XC EPS chk c',
  0 < EPS -> 0 <= MD -> 0 < VA ->
  cleanCut c P sol norm EC MD ST SA SR VA VR MC XC EPS chk = (c', CleanOK) ->
  c' = removeSmallCoefficients c P EPS EC /\
  support_ok (length (crow c')) (ncols P) ST SA SR /\
  (chk = true -> violated_by c' sol VA /\ violated_by c' sol (norm c' * VR)) /\
  dynamism_ok c' EPS ((if Qltb MD (1 / EPS) then 1 / EPS else MD) + EPS).
Proof.
  intros c P sol norm EC MD ST SA SR VA VR MC XC EPS chk c' He HM HV H. unfold cleanCut in H.
  set (k := removeSmallCoefficients c P EPS EC) in *.
  destruct (badSupport _ _ _ _ _) eqn:B1; [inversion H|].
  destruct (chk && _) eqn:B2; [inversion H|].
  destruct (badDynamism k MC XC _ EPS) eqn:B3; [inversion H|]. inversion H; subst c'.
  split; [reflexivity|]. split; [apply badSupport_spec, B1|]. split.
  - intros ->. cbn [andb] in B2. apply badViolation_spec; assumption.
  - assert (E : Qltb 0 EPS = true) by (apply Qltb_lt; exact He). rewrite E in B3.
    eapply badDynamism_sound; [exact He| |exact B3].
    assert (0 <= 1 / EPS) by (apply Qle_shift_div_l; lra).
    cbv zeta. destruct (Qltb MD (1 / EPS)); assumption.
Qed.
Print Assumptions clean_cut_accepted.

(** A rejected cut gets the code of the first failing test, in the order support, violation,
    dynamism; the support and violation tests are decided exactly by the limits. *)
Theorem clean_cut_rejected :
  forall c P sol norm EC MD ST SA SR VA VR MC XC EPS chk c' k,
  0 < VA -> 0 <= norm c' * VR ->
  cleanCut c P sol norm EC MD ST SA SR VA VR MC XC EPS chk = (c', k) -> 
  let s_ok := support_ok (length (crow c')) (ncols P) ST SA SR in
  let v_ok := violated_by c' sol VA /\ violated_by c' sol (norm c' * VR) in
  (k = BadSupport <-> ~ s_ok) /\
  (k = BadViolation <-> s_ok /\ chk = true /\ ~ v_ok) /\
  (k = BadDynamism -> s_ok /\ (chk = true -> v_ok)).
Proof.
  intros c P sol norm EC MD ST SA SR VA VR MC XC EPS chk c' k HV HN H. unfold cleanCut in H.
  set (q := removeSmallCoefficients c P EPS EC) in *. cbv zeta.
  assert (c' = q) as -> by (inversion H; reflexivity).
  assert (V : badViolation q (norm q) sol VA VR = false <-> violated_by q sol VA /\ violated_by q sol (norm q * VR)).
  { split; [intro B; apply badViolation_spec; assumption|]. intros [A B]. unfold badViolation, violated, violated_by in *.
    assert (Qltb (pdot (crow q) sol) (crhs q) = true) as -> by (apply Qltb_lt; lra).
    apply orb_false_iff. split; apply negb_false_iff, greaterThanVal_iff; lra. }
  pose proof (badSupport_spec (length (crow q)) (ncols P) ST SA SR) as S.
  destruct (badSupport _ _ _ _ _) eqn:B1.
  { assert (NS : ~ support_ok (length (crow q)) (ncols P) ST SA SR) by (intro X; apply S in X; discriminate).
    inversion H; subst. repeat split; intros; try tauto; try discriminate. }
  assert (YS : support_ok (length (crow q)) (ncols P) ST SA SR) by (apply S; reflexivity).
  destruct (chk && badViolation q (norm q) sol VA VR) eqn:B2.
  { apply andb_true_iff in B2. destruct B2 as [-> B2]. rewrite B2 in V.
    inversion H; subst. repeat split; intros; try tauto; try discriminate.
    intro X; apply V in X; discriminate. }
  assert (YV : chk = true -> violated_by q sol VA /\ violated_by q sol (norm q * VR)).
  { intros ->. cbn [andb] in B2. apply V, B2. }
  destruct (badDynamism _ _ _ _ _); inversion H; subst; repeat split; intros; try tauto; try discriminate.
Qed.
Print Assumptions clean_cut_rejected.

Example clean_cut_example :
  let P := {| ncols := 2; nrows := 0; clo := fun _ => Some 0; cup := fun _ => Some 100;
              rows := fun _ => {| rcoef := []; rlo := None; rup := None |}; obj := fun _ => 1 |} in
  let c := {| crow := [(0%nat,3);(1%nat,4)]; crhs := 10 |} in
  let run := fun thresh x => cleanCut c P x (fun _ => 5) (1#100000) 100000000 thresh 1 1 (1#10000000) (1#10000000)
                    1 10 (1#10000000) true in
  run 2 (fun _ => 1) = (c, CleanOK) /\ run 1 (fun _ => 1) = (c, BadSupport) /\ run 2 (fun _ => 2) = (c, BadViolation).
Proof. vm_compute. repeat split. Qed.
