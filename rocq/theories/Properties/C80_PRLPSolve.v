(** C80: solving the point-ray LP: retries, time limits, and what is reported. *)
From Coq Require Import Qminmax Lqa.
From Verif Require Import Prelude Model.Tolerance Model.HotStart Model.PRLPSolve Model.Generator Model.Generate Spec.SolveSpec Spec.TimeSpec Proofs.ToleranceP.
From Coq Require Import Lqa.
#[local] Open Scope Q_scope.

Notation cnt := SolveSpec.count.
Lemma cnt_app : forall p a c, cnt p (a ++ c) = (cnt p a + cnt p c)%nat.
Proof. intros p a c. unfold SolveSpec.count. rewrite filter_app, app_length. reflexivity. Qed.

(** ** One call of checkSolverOptimality with two re-solves. *)
Definition ok_op (tl : Q) (o : op) : Prop := match o with OLimit t => t = tl | OInitial => False | _ => leaves_problem o end.
Inductive ext (tl : Q) (h : history) : nat -> nat -> nat -> history -> Prop :=
| ext0 : ext tl h 0 0 0 h
| extS : forall n l s o k, ok_op tl o -> ext tl h n l s k ->
    ext tl h (Datatypes.S n) (if is_limit o then Datatypes.S l else l) (if is_solve o then Datatypes.S s else s) (o :: k).
Lemma ext_trace : forall tl h n l s k, ext tl h n l s k -> exists tr, k = tr ++ h /\ length tr = n /\ cnt is_limit tr = l /\ cnt is_solve tr = s /\ Forall (ok_op tl) tr.
Proof.
  intros tl h n l s k E. induction E as [|n l s o k Ho E (tr & -> & L & C1 & C2 & F)].
  - exists []. repeat (split; [reflexivity|]). constructor.
  - exists (o :: tr). split; [reflexivity|]. split; [cbn [length]; congruence|]. unfold SolveSpec.count in *. cbn [filter].
    split; [destruct (is_limit o); cbn [length]; congruence|]. split; [destruct (is_solve o); cbn [length]; congruence|]. constructor; assumption.
Qed.
Lemma check_ops : forall A tl h, exists tr, checked2 A tl h = tr ++ h /\ (length tr <= 11)%nat /\ (cnt is_limit tr <= 3)%nat /\
  (1 <= cnt is_solve tr)%nat /\ Forall (ok_op tl) tr.
Proof.
  intros A tl h.
  assert (G : exists n l s, ext tl h n l s (checked2 A tl h) /\ (n <= 11)%nat /\ (l <= 3)%nat /\ (1 <= s)%nat).
  { unfold checked2, checkSolverOptimality. cbn [andb]. change (0 <? 2)%Z with true. cbv iota.
    assert (L : forall mx c n l s k, (n <= 10)%nat -> (l <= 3)%nat -> (1 <= s)%nat -> ext tl h n l s k ->
      exists n l s, ext tl h n l s (match check_last A false mx c k with Returned _ x => x | Exited x => x end) /\ (n <= 11)%nat /\ (l <= 3)%nat /\ (1 <= s)%nat).
    { intros mx c n l s k Hn Hl Hs E.
      assert (D : (match check_last A false mx c k with Returned _ x => x | Exited x => x end) = k \/
                  (match check_last A false mx c k with Returned _ x => x | Exited x => x end) = OResolve :: k).
      { unfold check_last. destruct (q_pinf A k) eqn:P; [left; reflexivity|]. destruct (negb (q_opt A k)) eqn:O; [|left; reflexivity].
        destruct (c <? mx)%Z; cbv zeta.
        - right. destruct (q_pinf A (OResolve :: k)), (q_dinf A (OResolve :: k)), (negb (q_opt A (OResolve :: k))); reflexivity.
        - left. rewrite P, O. destruct (q_dinf A k); reflexivity. }
      destruct D as [-> | ->].
      - exists n, l, s. split; [exact E|]. lia.
      - eexists _, _, _. split; [eapply extS; [exact Logic.I|exact E]|]. cbn. lia. }
    assert (R : forall c k, (c = 0 \/ c = 1)%Z -> ext tl h (Z.to_nat (2 * c)) (Z.to_nat c) (Z.to_nat c) k ->
      let '(c', k') := resolve_loop A tl (Z.to_nat (2 - c)) c None k in exists m, (1 <= m <= 2)%nat /\ ext tl h (2 * m) m m k').
    { assert (st : forall m k, ext tl h (2 * m) m m k -> ext tl h (2 * Datatypes.S m) (Datatypes.S m) (Datatypes.S m) (OResolve :: OLimit tl :: k)).
      { intros m k E. replace (2 * Datatypes.S m)%nat with (Datatypes.S (Datatypes.S (2 * m))) by lia.
        exact (extS tl h _ _ _ OResolve _ Logic.I (extS tl h _ _ _ (OLimit tl) _ eq_refl E)). }
      intros c k [-> | ->] E.
      - change (Z.to_nat (2 - 0)) with 2%nat. cbn [resolve_loop]. change (0 =? 0)%Z with true. rewrite Bool.orb_true_r.
        change (0 + 1 =? 0)%Z with false. rewrite Bool.orb_false_r. destruct (_ && _).
        + exists 2%nat. split; [lia|]. apply (st 1%nat). apply (st 0%nat). exact E.
        + exists 1%nat. split; [lia|]. apply (st 0%nat). exact E.
      - change (Z.to_nat (2 - 1)) with 1%nat. cbn [resolve_loop]. destruct (_ || _).
        + exists 2%nat. split; [lia|]. apply (st 1%nat). exact E.
        + exists 1%nat. split; [lia|]. exact E. }
    assert (S0 : exists c k, (if q_pinf A h then (1%Z, OResolve :: OLimit tl :: h) else (0%Z, h)) = (c, k) /\ (c = 0 \/ c = 1)%Z /\ (c <? 2)%Z = true /\
      ext tl h (Z.to_nat (2 * c)) (Z.to_nat c) (Z.to_nat c) k).
    { destruct (q_pinf A h); eexists _, _; (split; [reflexivity|]).
      - split; [right; reflexivity|]. split; [reflexivity|].
        exact (extS tl h _ _ _ OResolve _ Logic.I (extS tl h _ _ _ (OLimit tl) _ eq_refl (ext0 tl h))).
      - split; [left; reflexivity|]. split; [reflexivity|]. constructor. }
    destruct S0 as (c & k & -> & Hc & -> & E).
    assert (CL : forall n l s k0 j, (n <= 10)%nat -> (l <= 3)%nat -> ext tl h n l s k0 ->
      exists n l s, ext tl h n l s (match check_last A false 0 0 (OClean j :: k0) with Returned _ x => x | Exited x => x end) /\ (n <= 11)%nat /\ (l <= 3)%nat /\ (1 <= s)%nat).
    { intros n l s k0 j Hn Hl E0. exists (Datatypes.S n), l, (Datatypes.S s). split; [|lia].
      replace (match check_last A false 0 0 (OClean j :: k0) with Returned _ x => x | Exited x => x end) with (OClean j :: k0).
      - exact (extS tl h _ _ _ (OClean j) _ Logic.I E0).
      - unfold check_last. change (0 <? 0)%Z with false. cbv zeta iota. destruct (q_pinf A (OClean j :: k0)), (q_dinf A (OClean j :: k0)), (q_opt A (OClean j :: k0)); reflexivity. }
    destruct (cleanup_choice A k) as [j|].
    { apply (CL _ _ _ _ _) with (3 := E); destruct Hc as [-> | ->]; cbn; lia. }
    cbv zeta. specialize (R c k Hc E). destruct (resolve_loop A tl (Z.to_nat (2 - c)) c None k) as [c' k'].
    destruct R as (m & Hm & E1).
    match goal with |- context [if ?b && q_pinf A k' then _ else _] => set (oldD := b) end.
    assert (S1 : exists c2 k2 n s, (if oldD && q_pinf A k'
         then if negb (q_dinf A (ODual :: k')) && negb (q_opt A (ODual :: k')) then (2%Z, OStatus 2 :: ODual :: k') else (c', ODual :: k')
         else (c', k')) = (c2, k2) /\ (n <= 6)%nat /\ (1 <= s)%nat /\ ext tl h n m s k2).
    { destruct (oldD && _); [destruct (_ && _)|]; eexists _, _, _, _; (split; [reflexivity|]).
      - split; [|split; [|exact (extS tl h _ _ _ (OStatus 2) _ Logic.I (extS tl h _ _ _ ODual _ Logic.I E1))]]; lia.
      - split; [|split; [|exact (extS tl h _ _ _ ODual _ Logic.I E1)]]; cbn; lia.
      - split; [|split; [|exact E1]]; lia. }
    destruct S1 as (c2 & k2 & n2 & s2 & X1 & N2 & M2 & E2).
    match goal with |- context [let '(_, _) := ?X in _] => replace X with (c2, k2) by (symmetry; exact X1) end.
    match goal with |- context [if ?b && q_pinf A k2 then _ else _] => set (oldO := b) end.
    assert (S2 : exists c3 k3 n l s, (if oldO && q_pinf A k2 then ((c2 + 1)%Z, OFactOff :: OResolve :: OLimit tl :: OFactOn :: k2) else (c2, k2)) = (c3, k3) /\
      (n <= 10)%nat /\ (l <= 3)%nat /\ (1 <= s)%nat /\ ext tl h n l s k3).
    { destruct (oldO && _); eexists _, _, _, _, _; (split; [reflexivity|]).
      - split; [|split; [|split; [|exact (extS tl h _ _ _ OFactOff _ Logic.I (extS tl h _ _ _ OResolve _ Logic.I (extS tl h _ _ _ (OLimit tl) _ eq_refl
          (extS tl h _ _ _ OFactOn _ Logic.I E2))))]]]; cbn; lia.
      - split; [|split; [|split; [|exact E2]]]; lia. }
    destruct S2 as (c3 & k3 & n3 & l3 & s3 & X2 & N3 & M3 & P3 & E3).
    match goal with |- context [let '(_, _) := ?X in _] => replace X with (c3, k3) by (symmetry; exact X2) end.
    destruct (cleanup_choice A k3) as [j|]; [apply (CL _ _ _ _ _ N3 M3 E3)|apply (L _ _ _ _ _ _ N3 M3 P3 E3)]. }
  destruct G as (n & l & s & E & Hn & Hl & Hs). destruct (ext_trace _ _ _ _ _ _ E) as (tr & X1 & X2 & X3 & X4 & X5).
  exists tr. split; [exact X1|]. split; [lia|]. split; [lia|]. split; [lia|exact X5].
Qed.

(** ** One call of resolvePRLP. *)
Definition ok2 (tl : Q) (o : op) : Prop := match o with OLimit t => t = tl | _ => leaves_problem o end.
Lemma ok_ok2 : forall tl tr, Forall (ok_op tl) tr -> Forall (ok2 tl) tr.
Proof. intros tl tr F. induction F as [|o tr Fo F IH]; constructor; [|exact IH]. destruct o; try exact Fo; try exact Logic.I. Qed.
Lemma ok_initial : forall tl tr, Forall (ok_op tl) tr -> cnt is_initial tr = 0%nat.
Proof. intros tl tr F. induction F as [|o tr Fo F IH]; [reflexivity|]. unfold SolveSpec.count in *. destruct o; cbn [filter is_initial]; try exact IH; destruct Fo. Qed.

(** A suspicious objective value: NaN although the LP is not infeasible, or minus infinity (or NaN) although it is optimal. *)
Definition suspicious (A : prlp_answers) (INF : Q) (h : history) : Prop :=
  q_pinf A h = false /\ q_obj A h = VNaN \/
  q_opt A h = true /\ match q_obj A h with VNaN | VNegInf => True | VFin q => q < - INF + EPS7 | VPosInf => False end.
Lemma neg_iff : forall v INF, objNegInfinity v INF = true <-> match v with VNaN | VNegInf => True | VFin q => q < - INF + EPS7 | VPosInf => False end.
Proof.
  intros v INF. destruct v as [| |q|]; cbn [objNegInfinity]; try (split; [intros _; exact Logic.I|reflexivity]).
  - unfold isNegInfinity. rewrite Bool.orb_true_iff, Bool.negb_true_iff. split.
    + intros [H|H]; [apply Qle_bool_iff in H; unfold EPS7; lra|]. destruct (Qlt_le_dec q (- INF + EPS7)) as [L|L]; [exact L|].
      apply (greaterThanVal_iff q (- INF) EPS7) in L. congruence.
    + intros H. right. destruct (greaterThanVal q (- INF) EPS7) eqn:G; [|reflexivity]. apply greaterThanVal_iff in G. lra.
  - split; [discriminate|intros []].
Qed.

Section Resolve.
Context (A : prlp_answers) (TL PRL INF : Q) (hard : bool).
Notation tl := (if hard then TL else PRL).
Notation res h := (resolvePRLP A TL PRL INF hard h).

(** The rounds of a call: what happened before each initialSolve. *)
Lemma resolve_rounds : forall h, exists tr, snd (res h) = tr ++ OLimit tl :: h /\ (length tr <= 38)%nat /\ (cnt is_limit tr <= 11)%nat /\
  (2 <= cnt is_solve tr)%nat /\ (cnt is_initial tr <= 2)%nat /\ Forall (ok2 tl) tr /\
  (forall tr2 tr1, tr = tr2 ++ OInitial :: tr1 -> exists tr0, tr1 = OLimit tl :: tr0 /\ suspicious A INF (tr0 ++ OLimit tl :: h)) /\
  (suspicious A INF (snd (res h)) -> (1 <= cnt is_initial tr)%nat).
Proof.
  intros h. unfold resolvePRLP. cbv zeta. cbn [snd].
  set (h0 := OLimit tl :: h).
  assert (noinit : forall tr, Forall (ok_op tl) tr -> forall tr2 tr1, tr <> tr2 ++ OInitial :: tr1).
  { intros tr F tr2 tr1 E. apply ok_initial in F. rewrite E, cnt_app in F. unfold SolveSpec.count in F. cbn [filter is_initial length] in F. lia. }
  assert (split_init : forall a c, (forall tr2 tr1, a <> tr2 ++ OInitial :: tr1) -> forall tr2 tr1, a ++ c = tr2 ++ OInitial :: tr1 -> exists d, tr2 = a ++ d /\ c = d ++ OInitial :: tr1).
  { intros a. induction a as [|o a IH]; intros c Na tr2 tr1 E; [exists tr2; auto|]. destruct tr2 as [|o2 tr2]; cbn [app] in E.
    - injection E as -> _. exfalso. exact (Na [] a eq_refl).
    - injection E as <- E. destruct (IH c) with (2 := E) as (d & -> & D).
      + intros x y Z. apply (Na (o :: x) y). rewrite Z. reflexivity.
      + exists d. split; [reflexivity|exact D]. }
  destruct (check_ops A tl (OResolve :: h0)) as (t1 & E1 & L1 & K1 & S1 & F1). rewrite E1. set (h1 := t1 ++ OResolve :: h0).
  assert (I1 := ok_initial _ _ F1).
  assert (R1 : h1 = (t1 ++ [OResolve]) ++ h0) by (unfold h1; rewrite <- app_assoc; reflexivity).
  assert (W1 : forall tr2 tr1, t1 ++ [OResolve] <> tr2 ++ OInitial :: tr1).
  { intros tr2 tr1. apply noinit. apply Forall_app. split; [exact F1|]. constructor; [exact Logic.I|constructor]. }
  (* second round *)
  assert (P2 : exists t2, (if negb (q_pinf A h1) && is_nan (q_obj A h1) then checked2 A tl (OInitial :: OLimit tl :: h1) else h1) = t2 ++ h0 /\
    (length t2 <= 25)%nat /\ (cnt is_limit t2 <= 7)%nat /\ (2 <= cnt is_solve t2)%nat /\ (cnt is_initial t2 <= 1)%nat /\ Forall (ok2 tl) t2 /\
    (forall tr2 tr1, t2 = tr2 ++ OInitial :: tr1 -> exists tr0, tr1 = OLimit tl :: tr0 /\ suspicious A INF (tr0 ++ h0)) /\
    (cnt is_initial t2 = 0%nat -> t2 ++ h0 = h1 /\ (q_pinf A h1 = true \/ q_obj A h1 <> VNaN))).
  { destruct (negb (q_pinf A h1) && is_nan (q_obj A h1)) eqn:B.
    - apply andb_prop in B. destruct B as [B1 B2]. apply Bool.negb_true_iff in B1. assert (B3 : q_obj A h1 = VNaN) by (destruct (q_obj A h1); cbn [is_nan] in B2; congruence).
      destruct (check_ops A tl (OInitial :: OLimit tl :: h1)) as (t & E & L & K & S & F).
      exists (t ++ OInitial :: OLimit tl :: t1 ++ [OResolve]). split; [rewrite E, R1; repeat rewrite <- app_assoc; cbn [app]; repeat rewrite <- app_assoc; reflexivity|].
      rewrite app_length. cbn [length]. rewrite app_length. cbn [length]. split; [lia|].
      rewrite !cnt_app. change (cnt is_limit (OInitial :: OLimit tl :: t1 ++ [OResolve])) with (Datatypes.S (cnt is_limit (t1 ++ [OResolve]))).
      change (cnt is_solve (OInitial :: OLimit tl :: t1 ++ [OResolve])) with (Datatypes.S (cnt is_solve (t1 ++ [OResolve]))).
      change (cnt is_initial (OInitial :: OLimit tl :: t1 ++ [OResolve])) with (Datatypes.S (cnt is_initial (t1 ++ [OResolve]))).
      rewrite !cnt_app. cbn [SolveSpec.count]. change (cnt is_limit [OResolve]) with 0%nat. change (cnt is_solve [OResolve]) with 1%nat. change (cnt is_initial [OResolve]) with 0%nat.
      rewrite I1, (ok_initial _ _ F). split; [lia|]. split; [lia|]. split; [lia|].
      split; [apply Forall_app; split; [apply ok_ok2; exact F|]; constructor; [exact Logic.I|]; constructor; [reflexivity|];
        apply Forall_app; split; [apply ok_ok2; exact F1|]; constructor; [exact Logic.I|constructor]|].
      split; [|lia].
      intros tr2 tr1 X. destruct (split_init _ _ (noinit _ F) _ _ X) as (d & -> & D). destruct d as [|o d]; cbn [app] in D.
      + injection D as <-. eexists. split; [reflexivity|]. rewrite <- R1. left. split; assumption.
      + exfalso. injection D as <- D. destruct d as [|o d]; cbn [app] in D; [discriminate D|]. injection D as <- D. exact (W1 _ _ D).
    - exists (t1 ++ [OResolve]). split; [exact R1|]. rewrite app_length, !cnt_app. cbn [length].
      change (cnt is_limit [OResolve]) with 0%nat. change (cnt is_solve [OResolve]) with 1%nat. change (cnt is_initial [OResolve]) with 0%nat. rewrite I1.
      split; [lia|]. split; [lia|]. split; [lia|]. split; [lia|].
      split; [apply Forall_app; split; [apply ok_ok2; exact F1|]; constructor; [exact Logic.I|constructor]|].
      split; [intros tr2 tr1 X; exfalso; exact (W1 _ _ X)|]. intros _. split; [symmetry; exact R1|].
      apply Bool.andb_false_iff in B. destruct B as [B|B]; [left; apply Bool.negb_false_iff; exact B|right; intros X; rewrite X in B; discriminate B]. }
  destruct P2 as (t2 & E2 & L2 & K2 & S2 & N2 & F2 & W2 & Z2). rewrite E2. set (h2 := t2 ++ h0) in *.
  destruct (q_opt A h2 && objNegInfinity (q_obj A h2) INF) eqn:B.
  - apply andb_prop in B. destruct B as [B1 B2].
    destruct (check_ops A tl (OInitial :: OLimit tl :: h2)) as (t & E & L & K & S & F).
    exists (t ++ OInitial :: OLimit tl :: t2). split; [rewrite E, <- app_assoc; reflexivity|].
    rewrite app_length, !cnt_app. cbn [length].
    change (cnt is_limit (OInitial :: OLimit tl :: t2)) with (Datatypes.S (cnt is_limit t2)).
    change (cnt is_solve (OInitial :: OLimit tl :: t2)) with (Datatypes.S (cnt is_solve t2)).
    change (cnt is_initial (OInitial :: OLimit tl :: t2)) with (Datatypes.S (cnt is_initial t2)).
    rewrite (ok_initial _ _ F). split; [lia|]. split; [lia|]. split; [lia|]. split; [lia|].
    split; [apply Forall_app; split; [apply ok_ok2; exact F|]; constructor; [exact Logic.I|]; constructor; [reflexivity|exact F2]|].
    split; [|lia].
    intros tr2 tr1 X. destruct (split_init _ _ (noinit _ F) _ _ X) as (d & -> & D). destruct d as [|o d]; cbn [app] in D.
    + injection D as <-. eexists. split; [reflexivity|]. right. split; [exact B1|]. apply neg_iff. exact B2.
    + injection D as <- D. destruct d as [|o d]; cbn [app] in D; [discriminate D|]. injection D as <- D. exact (W2 _ _ D).
  - exists t2. split; [reflexivity|]. split; [lia|]. split; [lia|]. split; [lia|]. split; [lia|]. split; [exact F2|]. split; [exact W2|].
    intros X. destruct (cnt is_initial t2) as [|n] eqn:C; [|lia]. exfalso. destruct (Z2 eq_refl) as [Y1 Y2].
    assert (Y1' : h2 = h1) by exact Y1. destruct X as [[X1 X2]|[X1 X2]].
    + rewrite Y1' in X1, X2. destruct Y2 as [Y2|Y2]; [congruence|exact (Y2 X2)].
    + apply neg_iff in X2. rewrite X1, X2 in B. discriminate B.
Qed.

Lemma ok2_deadline : forall tr h, Forall (ok2 tl) tr -> deadline h = Some tl -> deadline (tr ++ h) = Some tl.
Proof. intros tr h F D. induction F as [|o tr Fo F IH]; [exact D|]. destruct o; cbn [app deadline]; try exact IH. f_equal. exact Fo. Qed.
Lemma ok2_timed : forall tr, Forall (ok2 tl) tr -> all_timed tl (tr ++ [OLimit tl]).
Proof.
  intros tr F tr2 o tr1 E S. revert tr2 E. induction F as [|o' tr Fo F IH]; intros tr2 E; cbn [app] in E.
  - destruct tr2 as [|x tr2]; cbn [app] in E; [injection E as <- <-; discriminate S|]. injection E as _ E. destruct tr2; discriminate E.
  - destruct tr2 as [|x tr2]; cbn [app] in E.
    + injection E as -> <-. apply ok2_deadline; [exact F|reflexivity].
    + injection E as _ E. exact (IH _ E).
Qed.
(** What a call does to the LP: at least two solves, all with the time limit of the call, which is set at most 12 times; initialSolve at most
    twice; neither bounds nor hot starts are touched. *)
Theorem resolve_operations : forall h, exists tr, snd (res h) = tr ++ h /\ all_timed tl tr /\
  (cnt is_limit tr <= 12)%nat /\ (2 <= cnt is_solve tr)%nat /\ (cnt is_initial tr <= 2)%nat /\ (length tr <= 39)%nat /\ Forall leaves_problem tr.
Proof.
  intros h. destruct (resolve_rounds h) as (tr & E & L & K & S & N & F & _ & _). exists (tr ++ [OLimit tl]).
  split; [rewrite E, <- app_assoc; reflexivity|]. split; [apply ok2_timed; exact F|]. rewrite !cnt_app, app_length. cbn [length].
  change (cnt is_limit [OLimit tl]) with 1%nat. change (cnt is_solve [OLimit tl]) with 0%nat. change (cnt is_initial [OLimit tl]) with 0%nat.
  split; [lia|]. split; [lia|]. split; [lia|]. split; [lia|]. apply Forall_app. split; [|constructor; [exact Logic.I|constructor]].
  revert F. apply Forall_impl. intros o. destruct o; intros H; exact H || exact Logic.I.
Qed.
(** A new initialSolve only because of a suspicious objective value; and such a value is never accepted without one. *)
Theorem resolve_retries : forall h, exists tr, snd (res h) = tr ++ h /\
  (forall tr2 tr1, tr = tr2 ++ OInitial :: tr1 -> exists tr0, tr1 = OLimit tl :: tr0 /\ suspicious A INF (tr0 ++ h)) /\
  (suspicious A INF (snd (res h)) -> (1 <= cnt is_initial tr)%nat).
Proof.
  intros h. destruct (resolve_rounds h) as (tr & E & _ & _ & _ & _ & _ & W & Z). exists (tr ++ [OLimit tl]).
  split; [rewrite E, <- app_assoc; reflexivity|]. split; [|intros X; rewrite cnt_app; specialize (Z X); lia].
  intros tr2 tr1 X.
  assert (Y : exists y, tr1 = y ++ [OLimit tl] /\ tr = tr2 ++ OInitial :: y).
  { clear -X. revert tr X. induction tr2 as [|o tr2 IH]; intros tr X; destruct tr as [|o' tr]; cbn [app] in X; try discriminate X.
    - injection X as -> <-. exists tr. split; reflexivity.
    - injection X as _ X. destruct tr2; discriminate X.
    - injection X as -> X. destruct (IH _ X) as (y & -> & ->). exists y. split; reflexivity. }
  destruct Y as (y & -> & Y). destruct (W _ _ Y) as (tr0 & -> & Q). exists (tr0 ++ [OLimit tl]). split; [reflexivity|].
  rewrite <- app_assoc. exact Q.
Qed.
(** The value returned tells the state of the LP: the first of these that holds. *)
Theorem resolve_code : forall h, let c := fst (res h) in let h' := snd (res h) in
  (q_opt A h' = true /\ c = 0 \/
   q_opt A h' = false /\ q_dinf A h' = true /\ c = fcode F_DUAL_INFEASIBLE \/
   q_opt A h' = false /\ q_dinf A h' = false /\ q_lim A h' = true /\ c = fcode F_ITERATION_LIMIT \/
   q_opt A h' = false /\ q_dinf A h' = false /\ q_lim A h' = false /\ q_maxit A h' = true /\ c = fcode F_TIME_LIMIT \/
   q_opt A h' = false /\ q_dinf A h' = false /\ q_lim A h' = false /\ q_maxit A h' = false /\ q_aband A h' = true /\ c = fcode F_ABANDONED \/
   q_opt A h' = false /\ q_dinf A h' = false /\ q_lim A h' = false /\ q_maxit A h' = false /\ q_aband A h' = false /\ c = fcode F_UNKNOWN)%Z.
Proof.
  intros h c h'. assert (E : c = resolveCode A h') by reflexivity. rewrite E. clearbody h'. clear. unfold resolveCode.
  destruct (q_opt A h'); [left; auto|]. destruct (q_dinf A h'); [right; left; auto|]. destruct (q_lim A h'); [do 2 right; left; auto|].
  destruct (q_maxit A h'); [do 3 right; left; auto|]. destruct (q_aband A h'); [do 4 right; left; auto 10|do 5 right; auto 10].
Qed.
End Resolve.
Print Assumptions resolve_operations.
Print Assumptions resolve_retries.
Print Assumptions resolve_code.

(** ** Time. *)
Lemma nQ_S : forall n, nQ (Datatypes.S n) == nQ n + 1.
Proof. intros n. unfold nQ. rewrite Nat2Z.inj_succ. unfold Z.succ. rewrite inject_Z_plus. reflexivity. Qed.
Lemma nQ_le : forall n m, (n <= m)%nat -> nQ n <= nQ m.
Proof. intros n m H. unfold nQ. rewrite <- Zle_Qle. lia. Qed.
Lemma nQ_pos : forall n, 0 <= nQ n.
Proof. intros n. apply (nQ_le 0 n). lia. Qed.

Section Time.
Context (T : history -> Q) (s : Q) (K : keeps T s).
(** A history whose limits are at most [tl], begun with a deadline. *)
Lemma spent : forall tl tr h B, 0 <= tl -> Forall (ok2 tl) tr -> T h <= B -> (exists d, due T h = Some d /\ d <= B) ->
  let N := B + nQ (cnt is_limit tr) * tl + nQ (length tr) * s in
  T (tr ++ h) <= N /\ exists d, due T (tr ++ h) = Some d /\ d <= N.
Proof.
  intros tl tr h B Ht F HB HD. destruct K as [Ks KK]. induction F as [|o tr Fo F (I1 & d & I2 & I3)]; cbv zeta in *.
  - cbn [app length]. change (nQ (cnt is_limit [])) with 0. change (nQ 0) with 0. destruct HD as (d & D1 & D2). split; [lra|]. exists d. split; [exact D1|lra].
  - cbn [app length]. rewrite nQ_S.
    set (N := B + nQ (cnt is_limit tr) * tl + nQ (length tr) * s) in *.
    destruct (KK o (tr ++ h)) as (_ & K1 & K2).
    assert (LIM : nQ (cnt is_limit (o :: tr)) == nQ (cnt is_limit tr) + (if is_limit o then 1 else 0)).
    { unfold SolveSpec.count. cbn [filter]. destruct (is_limit o); [cbn [length]; apply nQ_S|symmetry; apply Qplus_0_r]. }
    assert (T1 : T (o :: tr ++ h) <= N + s).
    { destruct (is_solve o) eqn:S; [|specialize (K1 eq_refl); lra]. specialize (K2 eq_refl d I2). destruct K2; lra. }
    assert (NE : N + (if is_limit o then 1 else 0) * tl + s == B + nQ (cnt is_limit (o :: tr)) * tl + (nQ (length tr) + 1) * s) by (rewrite LIM; unfold N; ring).
    destruct (is_limit o) eqn:OL.
    + destruct o; try discriminate OL. cbn [ok2] in Fo. subst t. split; [lra|]. cbn [due]. destruct (Qltb tl 0) eqn:Q0; [apply Qltb_lt in Q0; lra|].
      eexists. split; [reflexivity|]. rewrite nQ_S. cbn [app] in *. lra.
    + split; [lra|]. exists d. split; [|rewrite nQ_S; lra]. destruct o; try discriminate OL; exact I2.
Qed.

(** One objective: at most 12 times the limit (plus what its 39 operations take anyway). *)
Theorem resolve_time : forall A TL PRL INF (hard : bool) h, let tl := if hard then TL else PRL in 0 <= tl ->
  T (snd (resolvePRLP A TL PRL INF hard h)) <= T h + 12 * tl + 39 * s.
Proof.
  intros A TL PRL INF hard h tl Ht. destruct (resolve_rounds A TL PRL INF hard h) as (tr & E & L & C & _ & _ & F & _ & _). fold tl in E, F.
  rewrite E. pose proof K as [Ks KK]. destruct (KK (OLimit tl) h) as (_ & K1 & _). specialize (K1 eq_refl).
  destruct (spent tl tr (OLimit tl :: h) (T h + tl + s) Ht F) as [G _].
  - lra.
  - cbn [due]. destruct (Qltb tl 0) eqn:Q0; [apply Qltb_lt in Q0; lra|]. eexists. split; [reflexivity|]. lra.
  - eapply Qle_trans; [exact G|].
    assert (H1 : nQ (cnt is_limit tr) * tl <= 11 * tl) by (apply Qmult_le_compat_r; [apply (nQ_le _ 11); lia|exact Ht]).
    assert (H2 : nQ (length tr) * s <= 38 * s) by (apply Qmult_le_compat_r; [apply (nQ_le _ 38); lia|exact Ks]).
    lra.
Qed.
End Time.
Print Assumptions resolve_time.

(** ** The first solve. *)
Lemma coinMin_min : forall a b, coinMin a b == Qmin a b.
Proof.
  intros a b. unfold coinMin. destruct (Qltb_reflect a b) as [L|L]; [rewrite Q.min_l; [reflexivity|lra]|rewrite Q.min_r; [reflexivity|]]. apply Qnot_lt_le. exact L.
Qed.
Lemma coinMax_max : forall a b, coinMax a b == Qmax a b.
Proof.
  intros a b. unfold coinMax. destruct (Qltb_reflect b a) as [L|L]; [rewrite Q.max_l; [reflexivity|lra]|rewrite Q.max_r; [reflexivity|]]. apply Qnot_lt_le. exact L.
Qed.
Lemma firstLimit_is : forall TL PRL, firstLimit TL PRL == Qmin TL (Qmax 60 (10 * PRL)).
Proof. intros TL PRL. unfold firstLimit. rewrite coinMin_min, coinMax_max. reflexivity. Qed.
(** "Not set": PRLP_TIMELIMIT is -1. *)
Definition unset (PRL : Q) : Prop := Qabs (PRL - -1) < EPS7.
Lemma unset_iff : forall PRL, isVal PRL (-1) EPS7 = true <-> unset PRL.
Proof. intros PRL. rewrite isVal_iff. reflexivity. Qed.
Lemma unset_false : forall PRL, isVal PRL (-1) EPS7 = false <-> ~ unset PRL.
Proof. intros PRL. rewrite <- unset_iff. destruct (isVal PRL (-1) EPS7); split; intros H; congruence. Qed.

(** The first solve is one initialSolve, with the smaller of TIMELIMIT and the larger of 60 seconds and 10 times PRLP_TIMELIMIT; a limit that is not set becomes
    the time this took, at least 5 seconds, and is in force from then on; one that is set is kept. *)
Theorem setup_solves : forall A T TL PRL h, exists tr l, let h1 := OInitial :: OLimit l :: h in
  let r := setupSolve A T TL PRL h in
  fr_h r = tr ++ h1 /\ l == Qmin TL (Qmax 60 (10 * PRL)) /\ cnt is_solve tr = 0%nat /\
  (unset PRL -> fr_limit r == Qmax 5 (T h1 - T (OLimit l :: h)) /\ deadline (fr_h r) = Some (fr_limit r)) /\
  (~ unset PRL -> fr_limit r = PRL /\ tr = []).
Proof.
  intros A T TL PRL h. unfold setupSolve. cbv zeta. set (l := firstLimit TL PRL).
  set (h1 := OInitial :: OLimit l :: h). set (el := T h1 - T (OLimit l :: h)).
  assert (G : exists r0, (fun r => fr_limit r = newLimit PRL el /\ fr_h r = (if isVal PRL (-1) EPS7 then OLimit (newLimit PRL el) :: h1 else h1)) r0 /\
    r0 = setupSolve A T TL PRL h).
  { eexists. split; [|reflexivity]. unfold setupSolve. cbv zeta. fold l. fold h1. fold el.
    repeat match goal with |- context [if ?b then _ else _] => match b with isVal _ _ _ => fail 1 | _ => destruct b end end; cbn [fr_limit fr_h]; split; reflexivity. }
  destruct G as (r0 & [G1 G2] & G3). unfold setupSolve in G3. cbv zeta in G3. fold l in G3. fold h1 in G3. fold el in G3.
  exists (if isVal PRL (-1) EPS7 then [OLimit (newLimit PRL el)] else []), l. rewrite <- G3. clear G3.
  rewrite G1, G2. unfold newLimit. destruct (isVal PRL (-1) EPS7) eqn:U.
  - split; [reflexivity|]. split; [apply firstLimit_is|]. split; [reflexivity|]. split.
    + intros _. split; [apply coinMax_max|reflexivity].
    + intros N. exfalso. apply N. apply unset_iff. exact U.
  - split; [reflexivity|]. split; [apply firstLimit_is|]. split; [reflexivity|]. split; [|intros _; split; reflexivity].
    intros V. apply unset_iff in V. congruence.
Qed.
(** The outcome: success exactly if the LP is optimal; otherwise one failure counter is increased. *)
Theorem setup_reason : forall A T TL PRL h, exists l, let h1 := OInitial :: OLimit l :: h in
  let r := setupSolve A T TL PRL h in let h' := fr_h r in let secs := T h1 - T (OLimit l :: h) in
  l == Qmin TL (Qmax 60 (10 * PRL)) /\
  (fr_reason r = SUCCESS_EXIT <-> q_opt A h' = true) /\ (fr_reason r = SUCCESS_EXIT <-> fr_fail r = None) /\
  (q_opt A h' = false ->
    (fr_reason r = PRLP_INFEASIBLE_EXIT <-> q_pinf A h' = true /\ q_aband A h' = false) /\
    (fr_reason r = PRLP_TIME_LIMIT_EXIT <-> ~ (q_pinf A h' = true /\ q_aband A h' = false) /\ l - EPS7 < secs) /\
    (fr_reason r = PRLP_NUMERICAL_ISSUES_EXIT <-> ~ (q_pinf A h' = true /\ q_aband A h' = false) /\ secs <= l - EPS7) /\
    (fr_fail r = Some F_PRIMAL_INFEASIBLE_NO_OBJ <-> fr_reason r = PRLP_INFEASIBLE_EXIT) /\
    (fr_reason r = PRLP_TIME_LIMIT_EXIT -> fr_fail r = Some F_NUMERICAL_ISSUES_NO_OBJ) /\
    (fr_reason r = PRLP_NUMERICAL_ISSUES_EXIT -> fr_fail r =
       Some (if q_lim A h' || q_maxit A h' || (q_dinf A h' && negb (q_aband A h')) then F_NUMERICAL_ISSUES_NO_OBJ else F_UNKNOWN))).
Proof.
  intros A T TL PRL h. exists (firstLimit TL PRL). cbv zeta. split; [apply firstLimit_is|]. unfold setupSolve. cbv zeta.
  set (l := firstLimit TL PRL). set (h1 := OInitial :: OLimit l :: h). set (el := T h1 - T (OLimit l :: h)).
  set (k := if isVal PRL (-1) EPS7 then OLimit (newLimit PRL el) :: h1 else h1).
  assert (LT : lessThanVal el l EPS7 = true <-> el <= l - EPS7) by apply lessThanVal_iff.
  destruct (q_opt A k) eqn:Eo; cbn [fr_h fr_reason fr_fail].
  { rewrite Eo. split; [split; reflexivity|]. split; [split; reflexivity|discriminate]. }
  destruct (q_pinf A k && negb (q_aband A k)) eqn:Ep.
  { cbn [fr_h fr_reason fr_fail]. rewrite Eo. apply andb_prop in Ep. destruct Ep as [Ep Ea]. apply Bool.negb_true_iff in Ea.
    split; [split; discriminate|]. split; [split; discriminate|]. intros _.
    split; [split; [intros _; split; assumption|reflexivity]|]. split; [split; [discriminate|intros [H _]; exfalso; apply H; split; assumption]|].
    split; [split; [discriminate|intros [H _]; exfalso; apply H; split; assumption]|]. split; [split; reflexivity|]. split; discriminate. }
  assert (Np : ~ (q_pinf A k = true /\ q_aband A k = false)) by (intros [H1 H2]; rewrite H1, H2 in Ep; discriminate Ep).
  destruct (lessThanVal el l EPS7) eqn:El; cbn [negb].
  - assert (L : el <= l - EPS7) by (apply LT; reflexivity).
    destruct (q_lim A k || q_maxit A k) eqn:E1; [|destruct (q_dinf A k && negb (q_aband A k)) eqn:E2]; cbn [fr_h fr_reason fr_fail]; rewrite Eo; rewrite ?E1, ?E2; cbn [orb].
    all: split; [split; discriminate|]; split; [split; discriminate|]; intros _.
    all: split; [split; [discriminate|intros H; exfalso; exact (Np H)]|].
    all: split; [split; [discriminate|intros [_ H]; exfalso; apply (Qlt_not_le _ _ H); exact L]|].
    all: split; [split; [intros _; split; [exact Np|exact L]|reflexivity]|].
    all: split; [split; discriminate|]; split; [discriminate|reflexivity].
  - assert (L : l - EPS7 < el) by (apply Qnot_le_lt; intros H; apply LT in H; discriminate H).
    cbn [fr_h fr_reason fr_fail]. rewrite Eo.
    split; [split; discriminate|]; split; [split; discriminate|]; intros _.
    split; [split; [discriminate|intros H; exfalso; exact (Np H)]|].
    split; [split; [intros _; split; [exact Np|exact L]|reflexivity]|].
    split; [split; [discriminate|intros [_ H]; exfalso; apply (Qlt_not_le _ _ L); exact H]|].
    split; [split; discriminate|]; split; [reflexivity|discriminate].
Qed.
Print Assumptions setup_solves.
Print Assumptions setup_reason.

(** ** A whole point-ray LP, and several. *)
Lemma setup_h : forall A T TL PRL h, exists el, fr_limit (setupSolve A T TL PRL h) = newLimit PRL el /\
  fr_h (setupSolve A T TL PRL h) = (if isVal PRL (-1) EPS7 then [OLimit (newLimit PRL el)] else []) ++ OInitial :: OLimit (firstLimit TL PRL) :: h.
Proof.
  intros A T TL PRL h. exists (T (OInitial :: OLimit (firstLimit TL PRL) :: h) - T (OLimit (firstLimit TL PRL) :: h)). unfold setupSolve. cbv zeta.
  repeat match goal with |- context [if ?b then _ else _] => match b with isVal _ _ _ => fail 1 | _ => destruct b end end; cbn [fr_limit fr_h]; split; try reflexivity;
    destruct (isVal PRL (-1) EPS7); reflexivity.
Qed.
Lemma new_ge : forall el, 5 <= coinMax MIN_PRLP_TIMELIMIT el.
Proof. intros el. rewrite coinMax_max. apply Q.le_max_l. Qed.

(** Setting up and trying objectives takes at most TIMELIMIT, and at most the larger of 60 seconds and 10 times PRLP_TIMELIMIT, for the first solve, and 12 times the limit
    for each objective (plus what the operations take anyway). *)
Theorem run_time : forall A T s TL PRL INF objs, keeps T s -> 0 <= TL -> 0 <= PRL \/ unset PRL ->
  let r := prlpRun A T TL PRL INF objs in
  T (snd r) <= T [OLimit PRL] + Qmin TL (Qmax 60 (10 * PRL)) + granted TL (fst r) objs + (3 + 40 * nQ (length objs)) * s.
Proof.
  intros A T s TL PRL INF objs K HT HP. cbv zeta. unfold prlpRun. cbv zeta. cbn [fst snd].
  destruct (setup_h A T TL PRL [OLimit PRL]) as (el & EL & EH). pose proof K as [Ks KK].
  set (l := firstLimit TL PRL) in *. assert (Hl : 0 <= l).
  { unfold l. rewrite firstLimit_is. apply Q.min_glb; [exact HT|]. apply Qle_trans with 60; [lra|apply Q.le_max_l]. }
  assert (HN : 0 <= newLimit PRL el).
  { unfold newLimit. destruct (isVal PRL (-1) EPS7) eqn:U; [pose proof (new_ge el); lra|]. destruct HP as [P|P]; [exact P|]. apply unset_iff in P. congruence. }
  set (N := newLimit PRL el) in *. rewrite <- firstLimit_is. fold l.
  set (h0 := OLimit l :: [OLimit PRL]) in *.
  assert (B1 : T h0 <= T [OLimit PRL] + s) by (apply KK; reflexivity).
  assert (B2 : T (OInitial :: h0) <= T [OLimit PRL] + l + 2 * s).
  { destruct (KK OInitial h0) as (_ & _ & K2). specialize (K2 eq_refl (T h0 + l)). unfold h0 at 1 in K2. cbn [due] in K2.
    destruct (Qltb l 0) eqn:Q0; [apply Qltb_lt in Q0; lra|]. destruct (K2 eq_refl); lra. }
  assert (B3 : T (fr_h (setupSolve A T TL PRL [OLimit PRL])) <= T [OLimit PRL] + l + 3 * s).
  { rewrite EH. destruct (isVal PRL (-1) EPS7); cbn [app]; [|lra]. destruct (KK (OLimit N) (OInitial :: h0)) as (_ & K1 & _). specialize (K1 eq_refl). lra. }
  rewrite EL. assert (GP : forall o, 0 <= granted TL N o).
  { induction o as [|[a b] o IH]; cbn [granted]; [lra|]. destruct a, b; lra. }
  assert (LP := nQ_pos (length objs)). assert (LS : 0 <= nQ (length objs) * s) by (apply Qmult_le_0_compat; assumption).
  assert (G : forall o h, T (fold_left (fun h o => genCutSolves A TL N INF (fst o) (snd o) h) o h) <= T h + granted TL N o + 40 * nQ (length o) * s).
  { induction o as [|[a b] o IH]; intros h; cbn [fold_left granted length fst snd].
    - change (nQ 0) with 0. lra.
    - eapply Qle_trans; [apply IH|]. rewrite nQ_S. unfold genCutSolves at 1.
      destruct a.
      + destruct (KK (OLimit N) h) as (_ & K1 & _). specialize (K1 eq_refl). lra.
      + pose proof (resolve_time T s K A TL N INF b h) as R. cbv zeta in R.
        destruct (KK (OLimit N) (snd (resolvePRLP A TL N INF b h))) as (_ & K1 & _). specialize (K1 eq_refl).
        destruct b; (specialize (R ltac:(assumption)) || idtac); lra. }
  destruct (fr_reason _); try (specialize (GP objs); lra).
  eapply Qle_trans; [apply G|]. lra.
Qed.
Print Assumptions run_time.

(** The limit is fixed once: by the first point-ray LP if it was not set; later ones never change it. *)
Theorem limit_once : forall TL INF runs PRL,
  (~ unset PRL -> Forall (fun r => fst r = PRL) (prlpRuns TL PRL INF runs)) /\
  (unset PRL -> forall A T objs rest, runs = (A, T, objs) :: rest -> exists l lim,
     l == Qmin TL (Qmax 60 (10 * PRL)) /\ lim == Qmax 5 (T [OInitial; OLimit l; OLimit PRL] - T [OLimit l; OLimit PRL]) /\
     Forall (fun r => fst r = lim) (prlpRuns TL PRL INF runs)).
Proof.
  intros TL INF. assert (P1 : forall runs PRL, ~ unset PRL -> Forall (fun r => fst r = PRL) (prlpRuns TL PRL INF runs)).
  { induction runs as [|[[A T] objs] runs IH]; intros PRL U; cbn [prlpRuns]; constructor.
    - unfold prlpRun. cbv zeta. cbn [fst]. destruct (setup_solves A T TL PRL [OLimit PRL]) as (tr & l & _ & _ & _ & _ & H). apply H, U.
    - assert (E : fst (prlpRun A T TL PRL INF objs) = PRL).
      { unfold prlpRun. cbv zeta. cbn [fst]. destruct (setup_solves A T TL PRL [OLimit PRL]) as (tr & l & _ & _ & _ & _ & H). apply H, U. }
      rewrite E. apply IH, U. }
  intros runs PRL. split; [apply P1|]. intros U A T objs rest ->. cbn [prlpRuns].
  destruct (setup_solves A T TL PRL [OLimit PRL]) as (tr & l & _ & H1 & _ & H2 & _). destruct (H2 U) as [H3 _].
  exists l, (fst (prlpRun A T TL PRL INF objs)). split; [exact H1|]. split; [exact H3|]. constructor; [reflexivity|]. apply P1.
  intros V. unfold unset in V. apply Qabs_Qlt_condition in V. destruct V as [_ V].
  assert (G : 5 <= fst (prlpRun A T TL PRL INF objs)).
  { unfold prlpRun. cbv zeta. cbn [fst]. rewrite H3. apply Q.le_max_l. }
  unfold EPS7 in V. lra.
Qed.
Print Assumptions limit_once.

(** ** Claims that do not hold. *)
Definition steps (h : history) : nat := (cnt is_resolve h + cnt is_initial h)%nat.
(** A solver that is often wrong: its objective is always NaN; in each group of four solves, the third finds the LP infeasible, the others optimal. *)
Definition wild : prlp_answers :=
  {| q_lp := {| q_lim := fun _ => false; q_opt := fun h => negb (Nat.eqb (steps h mod 4) 3); q_pinf := fun h => Nat.eqb (steps h mod 4) 3; q_dinf := fun _ => false; q_sec := fun _ => 0%Z;
       q_sumP := fun h => match (steps h mod 4)%nat with 1%nat => 6 # 100000000 | 2%nat => 55 # 1000000000 | _ => 0 end;
       q_sumD := fun h => match (steps h mod 4)%nat with 1%nat | 2%nat => 6 # 100000000 | _ => 0 end |};
     q_obj := fun _ => VNaN; q_maxit := fun _ => false; q_aband := fun _ => false |}.
(** A clock for which every solve takes all the time it has, and nothing else takes time: the time, and the deadline. *)
Fixpoint full (h : history) : Q * option Q :=
  match h with
  | [] => (0, None)
  | o :: h => let '(t, d) := full h in
      match o with
      | OLimit l => (t, if Qltb l 0 then None else Some (t + l))
      | _ => (if is_solve o then match d with Some d => if Qltb t d then d else t | None => t end else t, d)
      end
  end.
Definition fullT (h : history) : Q := fst (full h).
Lemma full_due : forall h, due fullT h = snd (full h).
Proof.
  induction h as [|o h IH]; [reflexivity|]. destruct o; cbn [due full]; rewrite ?IH; destruct (full h) as [t0 d0] eqn:F; try reflexivity.
  unfold fullT. cbn [full]. rewrite F. cbn [fst]. reflexivity.
Qed.
Lemma full_keeps : keeps fullT 0.
Proof.
  split; [lra|]. intros o h. assert (D := full_due h). assert (T0 : fullT h = fst (full h)) by reflexivity.
  assert (T1 : fullT (o :: h) = fst (full (o :: h))) by reflexivity. rewrite T0, T1. clear T0 T1. cbn [full]. destruct (full h) as [t d]. cbn [fst snd] in *.
  destruct o; cbn [fst is_solve]; try (split; [lra|]; split; [intros _; lra|discriminate]);
    (destruct d as [d|]; [destruct (Qltb_reflect t d) as [L|L]|]; (split; [lra|]; split; [discriminate|]; intros _ d' X; rewrite D in X; try discriminate X; injection X as <-; first [left; lra|right; lra])).
Qed.
(** "One objective takes at most PRLP_TIMELIMIT": with a solver that keeps to its limits exactly it can take 12 times that (so the bound above is the
    best one); and 0 ("solved") is returned although the objective value is not a number. *)
Theorem one_objective_refuted : exists (A : prlp_answers) (T : history -> Q), exclusive A /\ keeps T 0 /\
  let r := resolvePRLP A 60 5 (10 ^ 300) false [] in
  fst r = 0%Z /\ q_obj A (snd r) = VNaN /\ T (snd r) == T [] + 12 * 5.
Proof.
  exists wild, fullT. split; [intros h O; cbn in O |- *; split; [apply Bool.negb_true_iff; exact O|reflexivity]|]. split; [exact full_keeps|].
  split; [vm_compute; reflexivity|]. split; vm_compute; reflexivity.
Qed.
Print Assumptions one_objective_refuted.

(** "Zero means a proper objective value": also minus infinity is accepted in the end. *)
Definition always (v : objv) : prlp_answers :=
  {| q_lp := {| q_lim := fun _ => false; q_opt := fun _ => true; q_pinf := fun _ => false; q_dinf := fun _ => false; q_sec := fun _ => 0%Z;
       q_sumP := fun _ => 0; q_sumD := fun _ => 0 |};
     q_obj := fun _ => v; q_maxit := fun _ => false; q_aband := fun _ => false |}.
Theorem finite_value_refuted : exists A : prlp_answers, exclusive A /\ fst (resolvePRLP A 60 5 (10 ^ 300) false []) = 0%Z /\
  q_obj A (snd (resolvePRLP A 60 5 (10 ^ 300) false [])) = VNegInf.
Proof. exists (always VNegInf). split; [intros h _; split; reflexivity|]. split; vm_compute; reflexivity. Qed.
Print Assumptions finite_value_refuted.

(** "-1: no limit for the first solve": it is 60 seconds or TIMELIMIT, whichever is less.  "Then half that time": all of it, and at least 5 seconds.  The
    first solve below is given 60 seconds although TIMELIMIT is an hour, takes them all, and later ones get 60 seconds too. *)
Theorem default_refuted : exists A T TL, keeps T 0 /\ TL = 3600 /\
  let r := setupSolve A T TL (-1) [OLimit (-1)] in
  fr_reason r = SUCCESS_EXIT /\ fr_h r = [OLimit 60; OInitial; OLimit 60; OLimit (-1)] /\ fr_limit r == 60.
Proof. exists (always (VFin 0)), fullT, 3600. split; [exact full_keeps|]. split; [reflexivity|]. cbv zeta. split; [vm_compute; reflexivity|]. split; vm_compute; reflexivity. Qed.
Print Assumptions default_refuted.
(** For every run with the default: *)
Theorem default_limits : forall A T TL h, exists tr l, let h1 := OInitial :: OLimit l :: h in
  let r := setupSolve A T TL (-1) h in
  fr_h r = tr ++ h1 /\ l == Qmin TL 60 /\ T h1 - T (OLimit l :: h) <= fr_limit r /\ 5 <= fr_limit r.
Proof.
  intros A T TL h. destruct (setup_solves A T TL (-1) h) as (tr & l & E & L & _ & U & _). exists tr, l. cbv zeta. split; [exact E|].
  assert (M : Qmax 60 (10 * -1) == 60) by (apply Q.max_l; lra). rewrite M in L. split; [exact L|].
  assert (V : unset (-1)) by (vm_compute; reflexivity). destruct (U V) as [X _]. rewrite X. split; [apply Q.le_max_r|apply Q.le_max_l].
Qed.
Print Assumptions default_limits.

(** "The limit is taken from this disjunction's first solve": the second one's takes 60 seconds here, and gets 5 seconds each time. *)
Definition quick (h : history) : Q := 0.
Lemma quick_keeps : keeps quick 0.
Proof. split; [lra|]. intros o h. unfold quick. split; [lra|]. split; [intros; lra|intros; left; lra]. Qed.
Theorem own_limit_refuted : exists A T A' T', keeps T 0 /\ keeps T' 0 /\
  let rs := prlpRuns 3600 (-1) (10 ^ 300) [(A, T, []); (A', T', [])] in
  T' [OInitial; OLimit 60; OLimit 5] - T' [OLimit 60; OLimit 5] == 60 /\
  exists h h', rs = [(5, h); (5, h')] /\ h' = [OInitial; OLimit 60; OLimit 5].
Proof.
  exists (always (VFin 0)), quick, (always (VFin 0)), fullT. split; [exact quick_keeps|]. split; [exact full_keeps|]. cbv zeta. split; [vm_compute; reflexivity|].
  eexists _, _. split; [vm_compute; reflexivity|reflexivity].
Qed.
Print Assumptions own_limit_refuted.

(** A limit between -1 and 0 (the parameter allows it) is not replaced, and means no limit. *)
Theorem negative_no_limit : forall A T TL PRL INF h, -1 + EPS7 <= PRL -> PRL < 0 ->
  fr_limit (setupSolve A T TL PRL h) = PRL /\
  exists tr, snd (resolvePRLP A TL PRL INF false h) = tr ++ h /\ forall tr2 o tr1, tr = tr2 ++ o :: tr1 -> is_solve o = true -> due T (tr1 ++ h) = None.
Proof.
  intros A T TL PRL INF h H1 H2. split.
  - destruct (setup_solves A T TL PRL h) as (tr & l & _ & _ & _ & _ & N). apply N. intros V. unfold unset in V. apply Qabs_Qlt_condition in V. lra.
  - destruct (resolve_operations A TL PRL INF false h) as (tr & E & D & _). exists tr. split; [exact E|]. intros tr2 o tr1 X S. specialize (D _ _ _ X S). clear -D H2.
    induction tr1 as [|o tr1 IH]; [discriminate D|]. destruct o; cbn [deadline app due] in *; try (exact (IH D)). injection D as ->.
    destruct (Qltb_reflect PRL 0) as [L|L]; [reflexivity|contradiction].
Qed.
Print Assumptions negative_no_limit.
(** An LP found infeasible is reported as "unknown". *)
Theorem infeasible_unknown : forall A TL PRL INF hard h, let h' := snd (resolvePRLP A TL PRL INF hard h) in
  q_pinf A h' = true -> q_opt A h' = false -> q_dinf A h' = false -> q_lim A h' = false -> q_maxit A h' = false -> q_aband A h' = false ->
  fst (resolvePRLP A TL PRL INF hard h) = fcode F_UNKNOWN.
Proof.
  intros A TL PRL INF hard h h' _ H1 H2 H3 H4 H5. change (fst (resolvePRLP A TL PRL INF hard h)) with (resolveCode A h').
  unfold resolveCode. rewrite H1, H2, H3, H4, H5. reflexivity.
Qed.
Print Assumptions infeasible_unknown.

(** ** Examples. *)
Definition infeasible : prlp_answers :=
  {| q_lp := {| q_lim := fun _ => false; q_opt := fun _ => false; q_pinf := fun _ => true; q_dinf := fun _ => false; q_sec := fun _ => 0%Z;
       q_sumP := fun _ => 0; q_sumD := fun _ => 0 |};
     q_obj := fun _ => VFin 0; q_maxit := fun _ => false; q_aband := fun _ => false |}.
Example infeasible_example : let r := resolvePRLP infeasible 60 5 (10 ^ 300) false [] in
  fst r = fcode F_UNKNOWN /\ snd r = [OResolve; OLimit 5; OResolve; OLimit 5] /\ q_pinf infeasible (snd r) = true.
Proof. split; [vm_compute; reflexivity|]. split; vm_compute; reflexivity. Qed.
(** A good LP: solved once, checked once. *)
Example good_example : let r := prlpRun (always (VFin 3)) fullT 3600 10 (10 ^ 300) [(false, false); (true, false)] in
  keeps fullT 0 /\ fst r = 10 /\ snd r = [OLimit 10; OLimit 10; OResolve; OLimit 10; OResolve; OLimit 10; OInitial; OLimit 100; OLimit 10] /\
  fullT (snd r) == 120 /\ granted 3600 10 [(false, false); (true, false)] == 120.
Proof. split; [exact full_keeps|]. split; [vm_compute; reflexivity|]. split; [vm_compute; reflexivity|]. split; vm_compute; reflexivity. Qed.
Example setup_example : exists r, setupSolve infeasible fullT 3600 (-1) [] = r /\ fr_reason r = PRLP_INFEASIBLE_EXIT /\ fr_fail r = Some F_PRIMAL_INFEASIBLE_NO_OBJ.
Proof. eexists. split; [reflexivity|]. split; vm_compute; reflexivity. Qed.
