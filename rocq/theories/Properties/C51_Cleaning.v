(** C51: cleaning keeps the integer-feasible points and never loosens a bound. *)
From Verif Require Import Prelude Model.LP Model.Tolerance Model.Clean Spec.LPSpec.
From Coq Require Import Qround Lqa.

(** What is asked of the LP solver: a branch reported infeasible has no feasible point; a reported
    optimum over a problem is one, for the sense of the optimisation (1: minimise, -1: maximise). *)
Definition honest (sense : Q) (a : cleanans) : Prop :=
  (forall P j x, ka_down a P j = true -> feasible P x -> x j <= inject_Z (Qfloor (ka_sol a P j)) -> False) /\
  (forall P j x, ka_up a P j = true -> feasible P x -> inject_Z (Qceiling (ka_sol a P j)) <= x j -> False) /\
  (forall B j c v x, ka_lp a B j c = Some v -> feasible B x -> sense * (c * v) <= sense * (c * x j)).
Definition not_lower (b b' : option Q) : Prop := match b with None => True | Some l => exists l', b' = Some l' /\ l <= l' end.
Definition not_higher (b b' : option Q) : Prop := match b with None => True | Some u => exists u', b' = Some u' /\ u' <= u end.

(** ** Lemmas *)
Lemma floor_or_ceiling (z : Z) q : inject_Z z <= inject_Z (Qfloor q) \/ inject_Z (Qceiling q) <= inject_Z z.
Proof.
  destruct (Z_le_gt_dec z (Qfloor q)) as [H|H]; [left; rewrite <- Zle_Qle; exact H|right].
  pose proof (Qlt_floor q) as U. assert (K : q < inject_Z z). { eapply Qlt_le_trans; [exact U|]. rewrite <- Zle_Qle. lia. }
  assert (L : (Qceiling q <= z)%Z). { rewrite <- (Qceiling_Z z). apply Qceiling_resp_le. apply Qlt_le_weak, K. }
  rewrite <- Zle_Qle. exact L.
Qed.
Lemma Z_ceil (z : Z) q : q <= inject_Z z -> inject_Z (Qceiling q) <= inject_Z z.
Proof. intros H. rewrite <- Zle_Qle, <- (Qceiling_Z z). apply Qceiling_resp_le, H. Qed.
Lemma Z_floor (z : Z) q : inject_Z z <= q -> inject_Z z <= inject_Z (Qfloor q).
Proof. intros H. rewrite <- Zle_Qle, <- (Qfloor_Z z). apply Qfloor_resp_le, H. Qed.

Lemma set_lo_feasible B j v x : feasible B x -> v <= x j -> feasible (set_lo B j (Some v)) x.
Proof.
  intros (A & R) H. split; [|exact R]. intros i Hi. cbn [clo cup set_lo]. destruct (A i Hi) as [L U].
  split; [|exact U]. destruct (Nat.eqb_spec i j) as [E|_]; [subst; exact H|exact L].
Qed.
Lemma set_up_feasible B j v x : feasible B x -> x j <= v -> feasible (set_up B j (Some v)) x.
Proof.
  intros (A & R) H. split; [|exact R]. intros i Hi. cbn [clo cup set_up]. destruct (A i Hi) as [L U].
  split; [exact L|]. destruct (Nat.eqb_spec i j) as [E|_]; [subst; exact H|exact U].
Qed.

Section OneCall.
Variable away : Q.
Variable a : cleanans.
Variable P : lp.
Variable ints : nat -> bool.
Variable x : nat -> Q.

(** Keeping a point. *)
Lemma col_keeps s s' col : honest 1 a -> feasible P x -> (col < ncols P)%nat ->
  (ints col = true -> exists z : Z, x col == inject_Z z) ->
  feasible (ks_b s) x -> clean_col away a P ints s col = Some s' -> feasible (ks_b s') x.
Proof.
  intros (HD & HU & HL) FP Hc HI F. unfold clean_col.
  assert (TL : forall s, feasible (ks_b s) x -> feasible (ks_b (tighten_lo a P s col)) x).
  { intros s0 F0. unfold tighten_lo. destruct (ka_lp a (ks_b s0) col 1) as [v|] eqn:E; [|exact F0].
    destruct (above_lo v (clo P col)); [|exact F0]. apply set_lo_feasible; [exact F0|].
    pose proof (HL _ _ _ _ _ E F0). lra. }
  assert (TU : forall s, feasible (ks_b s) x -> feasible (ks_b (tighten_up a P s col)) x).
  { intros s0 F0. unfold tighten_up. destruct (ka_lp a (ks_b s0) col (-(1))) as [v|] eqn:E; [|exact F0].
    destruct (below_up v (cup P col)); [|exact F0]. apply set_up_feasible; [exact F0|].
    pose proof (HL _ _ _ _ _ E F0). lra. }
  destruct (ints col) eqn:Ei.
  - destruct (HI eq_refl) as (z & Hz).
    destruct FP as (PB & PR). destruct (PB col Hc) as [BL BU].
    destruct (branch_col away a P s col) as [s1|] eqn:Eb; [|discriminate]. intros H. injection H as <-.
    apply TU, TL.
    assert (F1 : feasible (ks_b s1) x).
    { unfold branch_col in Eb. destruct (_ && _); [|injection Eb as <-; exact F].
      destruct (ka_down a P col) eqn:Ed; destruct (ka_up a P col) eqn:Eu; cbn [orb andb] in Eb; try discriminate;
        injection Eb as <-; cbn [ks_b]; try exact F.
      - apply set_lo_feasible; [exact F|]. unfold ce. rewrite Hz.
        destruct (floor_or_ceiling z (ka_sol a P col)) as [C|C]; [|exact C].
        exfalso. apply (HD P col x Ed (conj PB PR)). rewrite Hz. exact C.
      - apply set_up_feasible; [exact F|]. unfold Clean.fl. rewrite Hz.
        destruct (floor_or_ceiling z (ka_sol a P col)) as [C|C]; [exact C|].
        exfalso. apply (HU P col x Eu (conj PB PR)). rewrite Hz. exact C. }
    assert (F2 : feasible (ks_b (round_lo P s1 col)) x).
    { unfold round_lo. destruct (clo P col) as [l|]; [|exact F1]. destruct (isVal _ _ _); [exact F1|].
      apply set_lo_feasible; [exact F1|]. cbn [above] in BL. rewrite Hz in *. apply Z_ceil, BL. }
    unfold round_up. destruct (cup P col) as [u|]; [|exact F2]. destruct (isVal _ _ _); [exact F2|].
    apply set_up_feasible; [exact F2|]. cbn [below] in BU. rewrite Hz in *. apply Z_floor, BU.
  - intros H. injection H as <-. apply TU, TL, F.
Qed.
Lemma col_exits s col : honest 1 a -> feasible P x ->
  (ints col = true -> exists z : Z, x col == inject_Z z) -> clean_col away a P ints s col <> None.
Proof.
  intros (HD & HU & HL) FP HI. unfold clean_col. destruct (ints col); [|discriminate].
  destruct (HI eq_refl) as (z & Hz). destruct (branch_col away a P s col) eqn:E; [discriminate|].
  unfold branch_col in E. destruct (_ && _); [|discriminate].
  destruct (ka_down a P col) eqn:Ed; destruct (ka_up a P col) eqn:Eu; cbn [orb andb] in E; try discriminate.
  destruct (floor_or_ceiling z (ka_sol a P col)) as [C|C]; exfalso.
  - apply (HD P col x Ed FP). rewrite Hz. exact C.
  - apply (HU P col x Eu FP). rewrite Hz. exact C.
Qed.
End OneCall.

(** The shape of boundSolver: only column bounds differ. *)
Definition framed (P B : lp) : Prop := ncols B = ncols P /\ nrows B = nrows P /\ rows B = rows P.
Lemma col_framed away a P ints s s' col : framed P (ks_b s) -> clean_col away a P ints s col = Some s' -> framed P (ks_b s').
Proof.
  intros F. unfold clean_col.
  assert (TL : forall s, framed P (ks_b s) -> framed P (ks_b (tighten_lo a P s col))).
  { intros s0 F0. unfold tighten_lo. destruct (ka_lp _ _ _ _); [|exact F0]. destruct (above_lo _ _); exact F0. }
  assert (TU : forall s, framed P (ks_b s) -> framed P (ks_b (tighten_up a P s col))).
  { intros s0 F0. unfold tighten_up. destruct (ka_lp _ _ _ _); [|exact F0]. destruct (below_up _ _); exact F0. }
  assert (RL : forall s, framed P (ks_b s) -> framed P (ks_b (round_lo P s col))).
  { intros s0 F0. unfold round_lo. destruct (clo P col); [|exact F0]. destruct (isVal _ _ _); exact F0. }
  assert (RU : forall s, framed P (ks_b s) -> framed P (ks_b (round_up P s col))).
  { intros s0 F0. unfold round_up. destruct (cup P col); [|exact F0]. destruct (isVal _ _ _); exact F0. }
  destruct (ints col).
  - destruct (branch_col away a P s col) as [s1|] eqn:E; [|discriminate]. intros H. injection H as <-.
    apply TU, TL, RU, RL. unfold branch_col in E. destruct (_ && _); [|injection E as <-; exact F].
    destruct (ka_down a P col), (ka_up a P col); cbn [orb andb] in E; try discriminate; injection E as <-; exact F.
  - intros H. injection H as <-. apply TU, TL, F.
Qed.
Lemma cols_ind away a P ints (I : cleanst -> Prop) cols s s' :
  (forall s s' c, In c cols -> I s -> clean_col away a P ints s c = Some s' -> I s') ->
  I s -> clean_cols away a P ints s cols = Some s' -> I s'.
Proof.
  revert s. induction cols as [|c r IH]; intros s HS H E; cbn [clean_cols] in E; [injection E as <-; exact H|].
  destruct (clean_col away a P ints s c) as [s1|] eqn:Ec; [|discriminate].
  apply (IH s1); [intros; eapply HS; [right; eassumption|eassumption|eassumption]| |exact E].
  eapply HS; [left; reflexivity|exact H|exact Ec].
Qed.
Lemma copy_feasible P B x : framed P B -> feasible B x -> feasible (copy_bounds P B) x.
Proof.
  intros (N & R & Rw) (FB & FR). split.
  - intros j Hj. cbn [ncols clo cup copy_bounds] in *. replace (Nat.ltb j (ncols P)) with true by (symmetry; apply Nat.ltb_lt; exact Hj).
    apply FB. rewrite N. exact Hj.
  - intros i Hi. cbn [nrows rows copy_bounds] in *. rewrite <- Rw. apply FR. rewrite R. exact Hi.
Qed.

(** One call keeps every feasible point whose integer columns are integral. *)
Theorem cleaning_keeps_integer_points : forall away a P ints nb nf P' nb' nf' clean x,
  honest 1 a -> cleanProblem away a P ints nb nf = Some (P', nb', nf', clean) ->
  feasible P x -> integral ints (ncols P) x -> feasible P' x.
Proof.
  intros away a P ints nb nf P' nb' nf' clean x H E F I0. unfold cleanProblem in E.
  destruct (clean_cols _ _ _ _ _ _) as [s|] eqn:Es; [|discriminate]. injection E as <- <- <- <-.
  assert (K : framed P (ks_b s) /\ feasible (ks_b s) x).
  { refine (cols_ind away a P ints (fun s => framed P (ks_b s) /\ feasible (ks_b s) x) _ _ _ _ _ Es).
    - intros s0 s1 c Hc (Fr & Fs) Ec. split; [eapply col_framed; eassumption|].
      apply in_seq in Hc. eapply (col_keeps away a P ints x s0 s1 c); try eassumption; [lia|].
      intros Hi. apply I0; [lia|exact Hi].
    - split; [repeat split|exact F]. }
  destruct K as (Fr & Fs). apply copy_feasible; assumption.
Qed.

(** The program only gives up ("Infeasible problem") when there is no integer-feasible point. *)
Theorem giving_up_is_justified : forall away a P ints nb nf x,
  honest 1 a -> cleanProblem away a P ints nb nf = None ->
  feasible P x -> integral ints (ncols P) x -> False.
Proof.
  intros away a P ints nb nf x H E F I0. unfold cleanProblem in E.
  destruct (clean_cols _ _ _ _ _ _) as [s|] eqn:Es; [discriminate|]. clear E.
  assert (G : forall cols s, (forall c, In c cols -> (c < ncols P)%nat) -> clean_cols away a P ints s cols <> None).
  { induction cols as [|c r IH]; intros s Hc; cbn [clean_cols]; [discriminate|].
    destruct (clean_col away a P ints s c) as [s1|] eqn:Ec.
    - apply IH. intros; apply Hc; right; assumption.
    - exfalso. refine (col_exits away a P ints x s c H F _ Ec). intros Hi. apply I0; [apply Hc; left; reflexivity|exact Hi]. }
  refine (G _ _ _ Es). intros c Hc. apply in_seq in Hc. lia.
Qed.

(** No bound of a column ends looser than it was, the rest of the problem is untouched (for a
    stored solution within the bounds). *)
Theorem bounds_never_loosened : forall away a P ints nb nf P' nb' nf' clean,
  in_box P (ka_sol a P) -> cleanProblem away a P ints nb nf = Some (P', nb', nf', clean) ->
  (forall j, (j < ncols P)%nat -> not_lower (clo P j) (clo P' j) /\ not_higher (cup P j) (cup P' j)) /\
  ncols P' = ncols P /\ nrows P' = nrows P /\ rows P' = rows P /\ obj P' = obj P.
Proof.
  intros away a P ints nb nf P' nb' nf' clean HB E. unfold cleanProblem in E.
  destruct (clean_cols _ _ _ _ _ _) as [s|] eqn:Es; [|discriminate]. injection E as <- <- <- <-.
  split; [|repeat split].
  assert (NL : forall l v, match l with Some l => l <= v | None => True end -> not_lower l (Some v)).
  { intros [l|] v H; cbn; [exists v; split; [reflexivity|exact H]|exact I]. }
  assert (NH : forall l v, match l with Some l => v <= l | None => True end -> not_higher l (Some v)).
  { intros [l|] v H; cbn; [exists v; split; [reflexivity|exact H]|exact I]. }
  pose (I0 := fun B => forall j, (j < ncols P)%nat -> not_lower (clo P j) (clo B j) /\ not_higher (cup P j) (cup B j)).
  assert (SL : forall B c v, I0 B -> ((c < ncols P)%nat -> not_lower (clo P c) (Some v)) -> I0 (set_lo B c (Some v))).
  { intros B c v HI Hv j Hj. cbn [clo cup set_lo]. destruct (HI j Hj) as [A B0]. split; [|exact B0].
    destruct (Nat.eqb_spec j c) as [Ej|_]; [subst; apply Hv; exact Hj|exact A]. }
  assert (SU : forall B c v, I0 B -> ((c < ncols P)%nat -> not_higher (cup P c) (Some v)) -> I0 (set_up B c (Some v))).
  { intros B c v HI Hv j Hj. cbn [clo cup set_up]. destruct (HI j Hj) as [A B0]. split; [exact A|].
    destruct (Nat.eqb_spec j c) as [Ej|_]; [subst; apply Hv; exact Hj|exact B0]. }
  assert (K : I0 (ks_b s)).
  { refine (cols_ind away a P ints (fun s => I0 (ks_b s)) _ _ _ _ _ Es).
    - intros s0 s1 c _ Fs Ec. unfold clean_col in Ec.
      assert (TL : forall s, I0 (ks_b s) -> I0 (ks_b (tighten_lo a P s c))).
      { intros t F0. unfold tighten_lo. destruct (ka_lp a (ks_b t) c 1) as [v|]; [|exact F0].
        destruct (above_lo v (clo P c)) eqn:Ea; [|exact F0]. apply SL; [exact F0|]. intros _. apply NL.
        unfold above_lo in Ea. destruct (clo P c) as [l|]; [|exact I]. unfold greaterThanVal in Ea.
        apply Qle_bool_iff in Ea. unfold EPS7 in Ea. lra. }
      assert (TU : forall s, I0 (ks_b s) -> I0 (ks_b (tighten_up a P s c))).
      { intros t F0. unfold tighten_up. destruct (ka_lp a (ks_b t) c (-(1))) as [v|]; [|exact F0].
        destruct (below_up v (cup P c)) eqn:Ea; [|exact F0]. apply SU; [exact F0|]. intros _. apply NH.
        unfold below_up in Ea. destruct (cup P c) as [l|]; [|exact I]. unfold lessThanVal in Ea.
        apply Qle_bool_iff in Ea. unfold EPS7 in Ea. lra. }
      destruct (ints c).
      + destruct (branch_col away a P s0 c) as [t|] eqn:Eb; [|discriminate]. injection Ec as <-.
        apply TU, TL.
        assert (F1 : I0 (ks_b t)).
        { unfold branch_col in Eb. destruct (_ && _); [|injection Eb as <-; exact Fs].
          destruct (ka_down a P c), (ka_up a P c); cbn [orb andb] in Eb; try discriminate;
            injection Eb as <-; cbn [ks_b]; try exact Fs.
          - apply SL; [exact Fs|]. intros Hc. apply NL. destruct (HB c Hc) as [L _]. unfold above in L.
            destruct (clo P c) as [l|]; [|exact I]. unfold ce. pose proof (Qle_ceiling (ka_sol a P c)). lra.
          - apply SU; [exact Fs|]. intros Hc. apply NH. destruct (HB c Hc) as [_ U]. unfold below in U.
            destruct (cup P c) as [l|]; [|exact I]. unfold Clean.fl. pose proof (Qfloor_le (ka_sol a P c)). lra. }
        assert (F2 : I0 (ks_b (round_lo P t c))).
        { unfold round_lo. destruct (clo P c) as [l|] eqn:El; [|exact F1]. destruct (isVal _ _ _); [exact F1|].
          apply SL; [exact F1|]. intros _. rewrite El. apply NL. apply Qle_ceiling. }
        unfold round_up. destruct (cup P c) as [u|] eqn:Eu; [|exact F2]. destruct (isVal _ _ _); [exact F2|].
        apply SU; [exact F2|]. intros _. rewrite Eu. apply NH. apply Qfloor_le.
      + injection Ec as <-. apply TU, TL, Fs.
    - intros j _. cbn [ks_b]. split.
      + destruct (clo P j) as [l|]; [apply NL|exact I]. apply Qle_refl.
      + destruct (cup P j) as [l|]; [apply NH|exact I]. apply Qle_refl. }
  intros j Hj. cbn [clo cup copy_bounds]. replace (Nat.ltb j (ncols P)) with true by (symmetry; apply Nat.ltb_lt; exact Hj).
  apply K, Hj.
Qed.

(** The report: "clean" means that nothing changed, anything else that a counter went up. *)
Theorem cleaning_report : forall away a P ints nb nf P' nb' nf' clean,
  cleanProblem away a P ints nb nf = Some (P', nb', nf', clean) ->
  (nb <= nb' /\ nf <= nf')%Z /\
  if clean then nb' = nb /\ nf' = nf /\ (forall j, clo P' j = clo P j /\ cup P' j = cup P j) /\
                ncols P' = ncols P /\ nrows P' = nrows P /\ rows P' = rows P
  else (nb + nf < nb' + nf')%Z.
Proof.
  intros away a P ints nb nf P' nb' nf' clean E. unfold cleanProblem in E.
  destruct (clean_cols _ _ _ _ _ _) as [s|] eqn:Es; [|discriminate]. injection E as <- <- <- <-.
  pose (I0 := fun s => (nb <= ks_bounds s /\ nf <= ks_fixed s)%Z /\
     if ks_clean s then ks_b s = P /\ ks_bounds s = nb /\ ks_fixed s = nf else (nb + nf < ks_bounds s + ks_fixed s)%Z).
  assert (CL : forall s c v, I0 s -> I0 (change_lo s c v)).
  { intros t c v ((A & B) & C). unfold I0, change_lo. cbn. split; [lia|]. destruct (ks_clean t); lia. }
  assert (CU : forall s c v, I0 s -> I0 (change_up s c v)).
  { intros t c v ((A & B) & C). unfold I0, change_up. cbn. split; [lia|]. destruct (ks_clean t); lia. }
  assert (K : I0 s).
  { refine (cols_ind away a P ints I0 _ _ _ _ _ Es).
    - intros s0 s1 c _ Fs Ec. unfold clean_col in Ec.
      assert (TL : forall s, I0 s -> I0 (tighten_lo a P s c)).
      { intros t F0. unfold tighten_lo. destruct (ka_lp _ _ _ _); [|exact F0]. destruct (above_lo _ _); [apply CL|]; exact F0. }
      assert (TU : forall s, I0 s -> I0 (tighten_up a P s c)).
      { intros t F0. unfold tighten_up. destruct (ka_lp _ _ _ _); [|exact F0]. destruct (below_up _ _); [apply CU|]; exact F0. }
      destruct (ints c).
      + destruct (branch_col away a P s0 c) as [t|] eqn:Eb; [|discriminate]. injection Ec as <-.
        apply TU, TL.
        assert (F1 : I0 t).
        { unfold branch_col in Eb. destruct (_ && _); [|injection Eb as <-; exact Fs].
          destruct Fs as ((A & B) & C).
          destruct (ka_down a P c), (ka_up a P c); cbn [orb andb] in Eb; try discriminate;
            injection Eb as <-; unfold I0; cbn [ks_b ks_bounds ks_fixed ks_clean];
            (split; [lia|]; destruct (ks_clean s0); first [lia | exact C]). }
        assert (F2 : I0 (round_lo P t c)).
        { unfold round_lo. destruct (clo P c) as [l|]; [|exact F1]. destruct (isVal _ _ _); [|apply CL]; exact F1. }
        unfold round_up. destruct (cup P c) as [u|]; [|exact F2]. destruct (isVal _ _ _); [|apply CU]; exact F2.
      + injection Ec as <-. apply TU, TL, Fs.
    - unfold I0. cbn. split; [lia|]. repeat split. }
  destruct K as (K1 & K2). split; [exact K1|]. destruct (ks_clean s); [|exact K2].
  destruct K2 as (-> & K2 & K3). repeat split; try assumption; cbn [clo cup copy_bounds]; destruct (Nat.ltb j (ncols P)); reflexivity.
Qed.

(** The whole cleaning (any number of repetitions) keeps every integer-feasible point. *)
Theorem repeated_cleaning_keeps_integer_points : forall away a ints fuel P nb nf P' nb' nf' x,
  honest 1 a -> clean_rounds away a ints fuel P nb nf = Some (P', nb', nf') ->
  feasible P x -> integral ints (ncols P) x -> feasible P' x.
Proof.
  intros away a ints fuel. induction fuel as [|k IH]; intros P nb nf P' nb' nf' x H E F I0; cbn [clean_rounds] in E.
  - injection E as <- <- <-. exact F.
  - destruct (cleanProblem away a P ints nb nf) as [[[[P1 nb1] nf1] c]|] eqn:E1; [|discriminate].
    pose proof (cleaning_keeps_integer_points _ _ _ _ _ _ _ _ _ _ x H E1 F I0) as F1.
    destruct c; [injection E as <- <- <-; exact F1|].
    refine (IH _ _ _ _ _ _ x H E F1 _).
    unfold cleanProblem in E1. destruct (clean_cols _ _ _ _ _ _) as [s|]; [|discriminate]. injection E1 as <- _ _ _. exact I0.
Qed.

(** ** Examples: one integer column 0 <= x0 <= 5 and the row 2 x0 >= 5 (so x0 >= 2.5). *)
Definition exP (lo hi : option Q) : lp :=
  {| ncols := 1; nrows := 1; clo := fun _ => lo; cup := fun _ => hi;
     rows := fun _ => {| rcoef := [(0%nat, 2)]; rlo := Some 5; rup := None |}; obj := fun _ => 1 |}.
(** A solver that stores [sol], finds the down branch infeasible whenever it is, and minimises exactly. *)
Definition exlo (B : lp) : Q := match clo B 0%nat with Some l => if Qltb l (5#2) then 5#2 else l | None => 5#2 end.
Definition exa (sol : Q) : cleanans :=
  {| ka_sol := fun _ _ => sol; ka_down := fun P j => Qltb (inject_Z (Qfloor sol)) (exlo P) && (Nat.eqb (ncols P) 1 && Nat.eqb j 0)
                                                   && (Nat.eqb (nrows P) 1 && match rcoef (rows P 0%nat), rlo (rows P 0%nat) with
                                                       | [(O, q)], Some r => Qeq_bool q 2 && Qeq_bool r 5 | _, _ => false end);
     ka_up := fun _ _ => false;
     ka_lp := fun B j c => if Qeq_bool c 1 && (Nat.eqb (ncols B) 1 && Nat.eqb j 0) &&
                              (Nat.eqb (nrows B) 1 && match rcoef (rows B 0%nat), rlo (rows B 0%nat) with
                                                       | [(O, q)], Some r => Qeq_bool q 2 && Qeq_bool r 5 | _, _ => false end)
                           then Some (exlo B) else None |}.
Lemma exlo_below B x : (ncols B = 1%nat) -> nrows B = 1%nat ->
  (match rcoef (rows B 0%nat), rlo (rows B 0%nat) with [(O, q)], Some r => Qeq_bool q 2 && Qeq_bool r 5 | _, _ => false end) = true ->
  feasible B x -> exlo B <= x 0%nat.
Proof.
  intros N M R (FB & FR). specialize (FB 0%nat ltac:(lia)). specialize (FR 0%nat ltac:(lia)).
  destruct (rcoef (rows B 0%nat)) as [|[[|k] q] [|? ?]]; try discriminate.
  destruct (rlo (rows B 0%nat)) as [r|]; try discriminate. apply andb_true_iff in R. destruct R as [R1 R2].
  apply Qeq_bool_iff in R1. apply Qeq_bool_iff in R2. destruct FR as [FR _]. cbn [above] in FR.
  rewrite pdot_cons, pdot_nil in FR. cbn [fst snd] in FR. assert (E1 : q * x 0%nat == 2 * x 0%nat) by (rewrite R1; reflexivity). destruct FB as [FB _]. unfold exlo. destruct (clo B 0%nat) as [l|]; [|lra].
  cbn [above] in FB. destruct (Qltb l (5#2)); lra.
Qed.
Example ex_honest sol : honest 1 (exa sol).
Proof.
  split; [|split].
  - intros P j x H F L. cbn [ka_down exa ka_sol] in *. rewrite !andb_true_iff, !Nat.eqb_eq in H.
    destruct H as ((H1 & H2 & H3) & H4 & H5). subst j. apply Qltb_lt in H1.
    pose proof (exlo_below P x H2 H4 H5 F). lra.
  - intros P j x H. discriminate.
  - intros B j c v x H F. cbn [ka_lp exa] in H. destruct (_ && _) eqn:E in H; [|discriminate]. injection H as <-.
    rewrite !andb_true_iff, !Nat.eqb_eq in E. destruct E as ((H1 & H2 & H3) & H4 & H5). subst j.
    apply Qeq_bool_iff in H1. rewrite H1. pose proof (exlo_below B x H2 H4 H5 F). lra.
Qed.
Example cleaning_example : exists P', 
  cleanProblem (1#1000) (exa (5#2)) (exP (Some 0) (Some 5)) (fun _ => true) 0 0 = Some (P', 1, 1, false)%Z /\
  clo P' 0%nat = Some 3 /\ cup P' 0%nat = Some 5 /\
  in_box (exP (Some 0) (Some 5)) (ka_sol (exa (5#2)) (exP (Some 0) (Some 5))) /\
  feasible (exP (Some 0) (Some 5)) (fun _ => 3) /\ integral (fun _ => true) 1 (fun _ => 3).
Proof.
  eexists. split; [vm_compute; reflexivity|]. split; [vm_compute; reflexivity|]. split; [vm_compute; reflexivity|].
  split; [intros j Hj; split; vm_compute; discriminate|].
  split; [split; intros j Hj; split; try (vm_compute; discriminate); exact I|].
  intros j _ _. exists 3%Z. reflexivity.
Qed.

(** If the problem maximises, the sense is copied to the solver that computes the bounds, and the
    minimum of a column is confused with its maximum: an integer-feasible point is lost although
    the LP solver is honest. *)
Theorem maximisation_refuted : exists a P P' nb' nf' clean x,
  honest (-(1)) a /\ feasible P x /\ integral (fun _ => true) (ncols P) x /\
  cleanProblem (1#1000) a P (fun _ => true) 0 0 = Some (P', nb', nf', clean) /\ ~ feasible P' x.
Proof.
  pose (P := {| ncols := 1; nrows := 0; clo := fun _ => Some 0; cup := fun _ => Some 5;
                rows := fun _ => {| rcoef := []; rlo := None; rup := None |}; obj := fun _ => 1 |} : lp).
  pose (a := {| ka_sol := fun _ _ => 0; ka_down := fun _ _ => false; ka_up := fun _ _ => false;
            ka_lp := fun (B : lp) j c => if Qeq_bool c 1 && Nat.ltb j (ncols B) then cup B j else None |}).
  exists a, P. eexists _, _, _, _, (fun _ => 0).
  split; [|split; [|split; [|split]]].
  - split; [discriminate|]. split; [discriminate|]. intros B j c v x H (FB & _). cbn [ka_lp a] in H.
    destruct (Qeq_bool c 1 && Nat.ltb j (ncols B)) eqn:E; [|discriminate]. apply andb_true_iff in E. destruct E as [E1 E2].
    apply Qeq_bool_iff in E1. apply Nat.ltb_lt in E2. destruct (FB j E2) as [_ U]. rewrite H in U. cbn [below] in U.
    rewrite E1. lra.
  - split; [|intros i Hi; cbn [nrows P] in Hi; lia]. intros j Hj. split; vm_compute; discriminate.
  - intros j _ _. exists 0%Z. reflexivity.
  - vm_compute. reflexivity.
  - intros (F & _). specialize (F 0%nat ltac:(cbn; lia)). destruct F as [F _]. apply F. reflexivity.
Qed.

(** When the stored solution is the one from before the bounds were changed (the next repetition
    does not solve again), the bound found by tightening is replaced by the ceiling of that solution:
    here a lower bound 4 becomes 3. *)
Theorem stale_solution_refuted : exists P',
  cleanProblem (1#1000) (exa (5#2)) (exP (Some 4) (Some 5)) (fun _ => true) 0 0 = Some (P', 0, 1, false)%Z /\
  clo (exP (Some 4) (Some 5)) 0%nat = Some 4 /\ clo P' 0%nat = Some 3.
Proof. eexists. split; [vm_compute; reflexivity|]. split; reflexivity. Qed.

(** ... and the same column is counted as fixed once per repetition. *)
Theorem stale_count_refuted : exists P',
  clean_rounds (1#1000) (exa (5#2)) (fun _ => true) MAX_CLEAN_ITER (exP (Some 0) (Some 5)) 0 0 = Some (P', 1, 5)%Z /\
  ncols P' = 1%nat.
Proof. eexists. split; [vm_compute; reflexivity|]. reflexivity. Qed.

(** A column with a fractional lower bound is counted as fixed by strong branching (to x >= 3), but
    the rounding of its old bound overwrites the new one and it ends at 5/2. *)
Theorem branching_bound_lost_refuted : exists P',
  cleanProblem (1#1000) (exa (5#2)) (exP (Some (1#2)) (Some 5)) (fun _ => true) 0 0 = Some (P', 2, 1, false)%Z /\
  clo P' 0%nat = Some (5#2).
Proof. eexists. split; [vm_compute; reflexivity|]. reflexivity. Qed.

Print Assumptions cleaning_keeps_integer_points.
Print Assumptions giving_up_is_justified.
Print Assumptions bounds_never_loosened.
Print Assumptions cleaning_report.
Print Assumptions repeated_cleaning_keeps_integer_points.
Print Assumptions maximisation_refuted.
Print Assumptions stale_solution_refuted.
Print Assumptions stale_count_refuted.
Print Assumptions branching_bound_lost_refuted.
