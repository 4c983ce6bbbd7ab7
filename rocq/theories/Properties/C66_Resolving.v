(** C66: re-solving.  The wrapper around hot starts answers for the bounds it was called with, leaves bounds and
    hot start as they were, and counts its failures; probing branches leaves no trace in the solver; the optimality
    check reports the solver's final status, ends the program only for a dual infeasible problem when asked to, and does a
    bounded number of re-solves. *)
From Verif Require Import Prelude Model.Tolerance Proofs.ToleranceP Model.SolverHelper Model.HotStart Spec.SolveSpec.
#[local] Open Scope Z_scope.

(** ** Bounds of histories. *)
Lemma same_refl : forall b h, same_bounds b h h. Proof. intros b h i. split; reflexivity. Qed.
Lemma same_sym : forall b h k, same_bounds b h k -> same_bounds b k h.
Proof. intros b h k H i. destruct (H i). split; symmetry; assumption. Qed.
Lemma same_trans : forall b h k l, same_bounds b h k -> same_bounds b k l -> same_bounds b h l.
Proof. intros b h k l H G i. destruct (H i), (G i). split; etransitivity; eassumption. Qed.
Definition moves (o : op) : bool := match o with OLower _ _ | OUpper _ _ => true | _ => false end.
Lemma same_skip : forall b o h, moves o = false -> same_bounds b (o :: h) h.
Proof. intros b o h M i. destruct o; try discriminate M; split; reflexivity. Qed.
Lemma same_side : forall b h ub col v, bound_is b h ub col v -> same_bounds b (set_side ub col v :: h) h.
Proof.
  intros b h ub col v E i. unfold bound_is in E. destruct ub; cbn [set_side lower_of upper_of]; split; try reflexivity;
    destruct (Nat.eqb_spec i col) as [->|]; try reflexivity; symmetry; assumption.
Qed.
Lemma same_twice : forall b h ub col v w, same_bounds b (set_side ub col v :: set_side ub col w :: h) (set_side ub col v :: h).
Proof. intros b h ub col v w i. destruct ub; cbn [set_side lower_of upper_of]; split; try reflexivity; destruct (Nat.eqb i col); reflexivity. Qed.
Lemma same_under : forall b o h k, same_bounds b h k -> same_bounds b (o :: h) (o :: k).
Proof.
  intros b o h k H i. destruct (H i) as [H1 H2]. destruct o; cbn [lower_of upper_of]; split; try assumption;
    destruct (Nat.eqb i _); try reflexivity; assumption.
Qed.
Lemma bound_here : forall b h ub col v, bound_is b (set_side ub col v :: h) ub col v.
Proof. intros b h ub col v. unfold bound_is. destruct ub; cbn [set_side lower_of upper_of]; rewrite Nat.eqb_refl; reflexivity. Qed.
Lemma bound_same : forall b h k ub col v, same_bounds b h k -> bound_is b k ub col v -> bound_is b h ub col v.
Proof. intros b h k ub col v H E. destruct (H col) as [H1 H2]. unfold bound_is in *. destruct ub; congruence. Qed.

(** ** One call of solveFromHotStart. *)
Section HotStart.
Context (A : answers) (col : nat) (ub : bool) (orig new : option Q) (viol MAX : Z) (h : history).
Context (ans : bool) (viol' : Z) (h' : history) (run : solveFromHotStart A col ub orig new viol MAX h = (ans, viol', h')).

Lemma two_more : forall (c : bool) v, (if c then v + 1 + 1 else v + 1) = (if c then v + 2 else v + 1).
Proof. intros [] v; lia. Qed.
(** The things that can happen. *)
Lemma hot_cases :
  let again := OHot :: set_side ub col new :: OMark :: OResolve :: set_side ub col orig :: OResolve :: OUnmark :: OHot :: h in
  let fails := if q_lim A again then viol + 2 else viol + 1 in
  (MAX < 0 /\ h' = OHot :: h /\ viol' = viol
   \/ 0 <= viol /\ MAX = 0 /\ h' = OMark :: OInitial :: OUnmark :: h /\ viol' = viol
   \/ viol < 0 /\ MAX = 0 /\ q_lim A (OHot :: h) = true /\ viol' = fails /\
      h' = (if 0 <=? fails then OMark :: OInitial :: OUnmark :: again else again)
   \/ 0 <= MAX /\ viol < MAX /\ q_lim A (OHot :: h) = false /\ h' = OHot :: h /\ viol' = viol
   \/ 0 < MAX /\ viol < MAX /\ q_lim A (OHot :: h) = true /\ viol' = fails /\
      h' = (if MAX <=? fails then OResolve :: again else again)
   \/ 0 < MAX /\ MAX <= viol /\ h' = OResolve :: h /\ viol' = viol)
  /\ ans = q_opt A h'.
Proof.
  cbv zeta. revert run. unfold solveFromHotStart. cbv zeta. destruct (Z.ltb_spec MAX 0) as [M|M].
  { intros E. injection E as <- <- <-. split; [left; split; [exact M|split; reflexivity]|reflexivity]. }
  destruct (Z.ltb_spec viol MAX) as [V|V].
  - destruct (q_lim A (OHot :: h)) eqn:L.
    + rewrite two_more.
      set (f := if q_lim A _ then viol + 2 else viol + 1).
      intros E. injection E as <- <- <-. split; [|reflexivity].
      destruct (Z.eqb_spec MAX 0) as [E0|E0].
      * right; right; left. rewrite E0. split; [lia|]. split; [reflexivity|]. split; [reflexivity|]. split; [reflexivity|]. reflexivity.
      * right; right; right; right; left. split; [lia|]. split; [exact V|]. split; [reflexivity|]. split; [reflexivity|]. reflexivity.
    + intros E. injection E as <- <- <-. split; [|reflexivity]. destruct (Z.leb_spec MAX viol) as [W|W]; [lia|].
      right; right; right; left. split; [lia|]. split; [exact V|]. split; [reflexivity|]. split; reflexivity.
  - intros E. injection E as <- <- <-. split; [|reflexivity]. destruct (Z.leb_spec MAX viol) as [W|W]; [|lia].
    destruct (Z.eqb_spec MAX 0) as [E0|E0].
    + right; left. split; [lia|]. split; [exact E0|]. split; reflexivity.
    + right; right; right; right; right. split; [lia|]. split; [exact V|]. split; reflexivity.
Qed.

(** The answer is whether the solver is optimal now. *)
Theorem hot_answer : ans = q_opt A h'.
Proof. exact (proj2 hot_cases). Qed.

(** A negative limit: exactly one hot start. *)
Theorem hot_always : MAX < 0 -> h' = OHot :: h /\ viol' = viol.
Proof.
  intros M. destruct hot_cases as [[C|[C|[C|[C|[C|C]]]]] _]; try (exfalso; lia). destruct C as (_ & E & V). split; assumption.
Qed.
(** A counter that has reached a positive limit: exactly one re-solve, no hot start. *)
Theorem hot_disabled : 0 < MAX <= viol -> h' = OResolve :: h /\ viol' = viol.
Proof.
  intros M. destruct hot_cases as [[C|[C|[C|[C|[C|C]]]]] _]; try (exfalso; lia). destruct C as (_ & _ & E & V). split; assumption.
Qed.

(** The new operations are put in front of the history. *)
Theorem hot_extends : exists tr, h' = tr ++ h.
Proof.
  destruct hot_cases as [[C|[C|[C|[C|[C|C]]]]] _]; decompose [and] C; subst h'; try (destruct (_ <=? _)); eexists (_ :: _);
    rewrite <- app_comm_cons; f_equal; try (symmetry; apply app_nil_l);
    repeat match goal with |- _ :: _ = _ => instantiate (1 := _ :: _); rewrite <- app_comm_cons; f_equal end; symmetry; apply app_nil_l.
Qed.

Ltac qlim := match goal with |- context [if q_lim A ?k then _ else _] => destruct (q_lim A k) end.
Ltac hot := destruct hot_cases as [[C|[C|[C|[C|[C|C]]]]] _]; decompose [and] C; clear C; subst h'.
Ltac bnd := repeat first
  [ apply same_refl
  | match goal with |- same_bounds _ (?o :: _) _ => apply (same_trans _ _ _ _ (same_skip _ o _ eq_refl)) end ].

(** The counter grows by the number of new hot starts that ran into the iteration limit. *)
Lemma limited_hot : forall k, limited A (OHot :: k) = ((if q_lim A (OHot :: k) then 1 else 0) + limited A k)%nat.
Proof. reflexivity. Qed.
Lemma limited_other : forall o k, is_hot o = false -> limited A (o :: k) = limited A k.
Proof. intros o k E. cbn [limited]. rewrite E. reflexivity. Qed.
Lemma limited_side : forall v k, limited A (set_side ub col v :: k) = limited A k. Proof. intros v k. destruct ub; reflexivity. Qed.
Lemma limited_again : forall k, let again := OHot :: set_side ub col new :: OMark :: OResolve :: set_side ub col orig :: OResolve :: OUnmark :: OHot :: k in
  q_lim A (OHot :: k) = true -> limited A again = (if q_lim A again then 2 + limited A k else 1 + limited A k)%nat.
Proof.
  intros k again E. unfold again. rewrite limited_hot, limited_side, !limited_other, limited_side, !limited_other, limited_hot, E by reflexivity.
  qlim; reflexivity.
Qed.
Theorem hot_counts : 0 <= MAX -> viol' = viol + Z.of_nat (limited A h') - Z.of_nat (limited A h).
Proof.
  intros M. pose proof (limited_again h) as G. cbv zeta in G. hot; try lia;
    repeat match goal with H : q_lim A _ = _ |- _ => specialize (G H) || clear G; revert H end; intros;
    repeat match goal with H : viol' = _ |- _ => rewrite H; clear H end.
  - rewrite !limited_other by reflexivity. lia.
  - destruct (_ <=? _); rewrite ?(limited_other OMark), ?(limited_other OInitial), ?(limited_other OUnmark), G by reflexivity;
      qlim; lia.
  - rewrite limited_hot. match goal with H : q_lim A _ = _ |- _ => rewrite H end. lia.
  - destruct (_ <=? _); rewrite ?(limited_other OResolve), G by reflexivity; qlim; lia.
  - rewrite !limited_other by reflexivity. lia.
Qed.
(** At most two failures per call, and the limit is passed by at most one. *)
Theorem hot_counter : viol <= viol' <= viol + 2 /\ (viol < MAX -> viol' <= MAX + 1).
Proof. hot; try lia; rewrite H2; qlim; lia. Qed.

(** At most five solves. *)
Theorem hot_solves : (count is_solve h' <= count is_solve h + 5)%nat.
Proof. hot; try (destruct (_ <=? _)); destruct ub; cbn [set_side count filter is_solve length]; unfold count; cbn; lia. Qed.

(** The hot start is used properly, and is marked afterwards. *)
Theorem hot_protocol : forall m, hot_state m h = Some true -> hot_state m h' = Some true.
Proof. intros m E. hot; try (destruct (_ <=? _)); destruct ub; cbn [set_side hot_state]; rewrite E; reflexivity. Qed.

(** If the bound was set to the new value, all bounds are as they were... *)
Theorem hot_bounds : forall b, bound_is b h ub col new -> same_bounds b h' h.
Proof.
  intros b E.
  assert (G : same_bounds b (OHot :: set_side ub col new :: OMark :: OResolve :: set_side ub col orig :: OResolve :: OUnmark :: OHot :: h) h).
  { apply (same_trans _ _ (set_side ub col new :: set_side ub col orig :: h)).
    - apply (same_trans _ _ _ _ (same_skip _ OHot _ eq_refl)). apply same_under. bnd.
      apply same_under. bnd.
    - apply (same_trans _ _ _ _ (same_twice _ _ _ _ _ _)). apply same_side. exact E. }
  hot; try (destruct (_ <=? _)); bnd; try exact G; bnd;
    repeat match goal with |- same_bounds _ (?o :: _) _ => apply (same_trans _ _ _ _ (same_skip _ o _ eq_refl)) end; try apply same_refl;
    apply (same_trans _ _ _ _ (same_sym _ _ _ (same_skip _ OHot _ eq_refl))); exact G.
Qed.
(** ... and the status is that of a new solve at those bounds. *)
Theorem hot_solved : forall b, bound_is b h ub col new -> solved_at b h' h /\ exists s tr, last_solve h' = Some (s :: tr ++ h).
Proof.
  intros b E. pose proof (hot_bounds b E) as B. split.
  - assert (L : exists s, last_solve h' = Some s /\ same_bounds b s h').
    { clear B. hot; try (destruct (_ <=? _)); cbn [last_solve is_solve]; eexists; (split; [reflexivity|]); bnd; apply same_refl || idtac.
      all: apply same_sym; bnd. }
    destruct L as (s & L & S). exists s. split; [exact L|]. split; [apply (same_trans _ _ _ _ S B)|exact B].
  - clear B. hot; try (destruct (_ <=? _)); cbn [last_solve is_solve]; eexists; eexists; f_equal; f_equal; try (symmetry; apply app_nil_l);
    repeat match goal with |- _ :: _ = _ => instantiate (1 := _ :: _); rewrite <- app_comm_cons; f_equal end; symmetry; apply app_nil_l.
Qed.
(** A hot start marked at the original bounds stays at the original bounds, unless the limit is 0. *)
Theorem hot_mark : forall b, MAX <> 0 -> marked_at b h (set_side ub col orig :: h) -> marked_at b h' (set_side ub col orig :: h).
Proof.
  intros b N M.
  hot; try (exfalso; lia).
  - destruct M as (m & E & S). exists m. split; [exact E|exact S].
  - destruct M as (m & E & S). exists m. split; [exact E|exact S].
  - clear M. exists (OResolve :: set_side ub col orig :: OResolve :: OUnmark :: OHot :: h). split.
    + destruct (_ <=? _); destruct ub; reflexivity.
    + apply (same_trans _ _ _ _ (same_skip _ OResolve _ eq_refl)). apply same_under. bnd.
  - destruct M as (m & E & S). exists m. split; [exact E|exact S].
Qed.
(** With limit 0 and no failures so far, the hot start is marked again at the changed bounds. *)
Theorem hot_mark_zero : forall b, MAX = 0 -> 0 <= viol -> marked_at b h' h.
Proof.
  intros b N V. hot; try (exfalso; lia). eexists. split; [reflexivity|]. bnd.
Qed.
End HotStart.

(** ** Probing both branches of a variable. *)
Section Probe.
Context (A : answers) (MAX : Z).

Lemma hot0 : forall col ub orig new h a h', solveFromHotStart0 A col ub orig new MAX h = (a, h') ->
  exists v, solveFromHotStart A col ub orig new 0 MAX h = (a, v, h').
Proof.
  intros col ub orig new h a h' E. unfold solveFromHotStart0 in E. destruct (solveFromHotStart _ _ _ _ _ _ _ _) as [[x v] k].
  injection E as <- <-. exists v. reflexivity.
Qed.
Lemma mark_same : forall b h r s, same_bounds b r s -> marked_at b h r -> marked_at b h s.
Proof. intros b h r s S (m & E & M). exists m. split; [exact E|]. apply (same_trans _ _ _ _ M S). Qed.
Lemma solved_same : forall b h r s, same_bounds b r s -> solved_at b h r -> solved_at b h s.
Proof. intros b h r s S (m & E & M & N). exists m. split; [exact E|]. split; eapply same_trans; eassumption. Qed.

(** One side and back: set, solve, set back, solve. *)
Lemma one_side : forall b m col ub orig v h a h1 a' h2, bound_is b h ub col orig -> hot_state m h = Some true -> marked_at b h h ->
  solveFromHotStart0 A col ub orig v MAX (set_side ub col v :: h) = (a, h1) ->
  solveFromHotStart0 A col ub orig orig MAX (set_side ub col orig :: h1) = (a', h2) ->
  solved_at b h1 (set_side ub col v :: h) /\ same_bounds b h2 h /\ hot_state m h2 = Some true /\ marked_at b h2 h.
Proof.
  intros b m col ub orig v h a h1 a' h2 B H M R1 R2.
  destruct (hot0 _ _ _ _ _ _ _ R1) as [v1 S1]. destruct (hot0 _ _ _ _ _ _ _ R2) as [v2 S2].
  assert (H0 : forall w k, hot_state m k = Some true -> hot_state m (set_side ub col w :: k) = Some true).
  { intros w k E. destruct ub; cbn [set_side hot_state]; rewrite E; reflexivity. }
  pose proof (hot_bounds _ _ _ _ _ _ _ _ _ _ _ S1 b (bound_here _ _ _ _ _)) as B1.
  pose proof (hot_bounds _ _ _ _ _ _ _ _ _ _ _ S2 b (bound_here _ _ _ _ _)) as B2.
  pose proof (hot_protocol _ _ _ _ _ _ _ _ _ _ _ S1 m (H0 _ _ H)) as P1.
  pose proof (hot_protocol _ _ _ _ _ _ _ _ _ _ _ S2 m (H0 _ _ P1)) as P2.
  assert (BK : same_bounds b (set_side ub col orig :: h1) h).
  { apply (same_trans _ _ (set_side ub col orig :: set_side ub col v :: h)); [apply same_under; exact B1|].
    apply (same_trans _ _ _ _ (same_twice _ _ _ _ _ _)). apply same_side. exact B. }
  split; [exact (proj1 (hot_solved _ _ _ _ _ _ _ _ _ _ _ S1 b (bound_here _ _ _ _ _)))|].
  split; [apply (same_trans _ _ _ _ B2 BK)|]. split; [exact P2|].
  destruct (Z.eq_dec MAX 0) as [Z0|Z0].
  - apply (mark_same b _ (set_side ub col orig :: h1)); [exact BK|]. exact (hot_mark_zero _ _ _ _ _ _ _ _ _ _ _ S2 b Z0 (Z.le_refl 0)).
  - assert (L : forall w k r, marked_at b k r -> marked_at b (set_side ub col w :: k) r).
    { intros w k r (x & E & X). exists x. split; [destruct ub; exact E|exact X]. }
    assert (M1 : marked_at b h1 h).
    { apply (mark_same b _ (set_side ub col orig :: set_side ub col v :: h)).
      - apply (same_trans _ _ _ _ (same_twice _ _ _ _ _ _)). apply same_side. exact B.
      - apply (hot_mark _ _ _ _ _ _ _ _ _ _ _ S1 b Z0). apply L. apply (mark_same b _ h); [|exact M].
        apply same_sym. apply (same_trans _ _ _ _ (same_twice _ _ _ _ _ _)). apply same_side. exact B. }
    apply (mark_same b _ (set_side ub col orig :: set_side ub col orig :: h1)).
    + apply (same_trans _ _ _ _ (same_twice _ _ _ _ _ _)). exact BK.
    + apply (hot_mark _ _ _ _ _ _ _ _ _ _ _ S2 b Z0). apply L. apply (mark_same b _ h); [|exact M1].
      apply same_sym. apply (same_trans _ _ _ _ (same_twice _ _ _ _ _ _)). exact BK.
Qed.

(** What a probe reports: the down side is the status of the solver at the bounds with upper bound [fl] on the column,
    the up side with lower bound [ce]. *)
Definition reports (b : bounds) (col : nat) (fl ce : option Q) (h : history) (down up : side) : Prop :=
  (exists k, solved_at b k (OUpper col fl :: h) /\ side_of A k = Some down) /\
  (exists k, solved_at b k (OLower col ce :: h) /\ side_of A k = Some up).
(** Probing leaves the bounds, and a hot start at these bounds, whatever the limit on failures. *)
Theorem probe_split_restores : forall b m col lo up fl ce h down upw h',
  bound_is b h false col lo -> bound_is b h true col up -> hot_state m h = Some true -> marked_at b h h ->
  probe_split A MAX col lo up fl ce h = Some (down, upw, h') ->
  same_bounds b h' h /\ hot_state m h' = Some true /\ marked_at b h' h' /\ reports b col fl ce h down upw.
Proof.
  intros b m col lo up fl ce h down upw h' BL BU H M R. unfold probe_split in R.
  destruct (solveFromHotStart0 A col true up fl MAX (OUpper col fl :: h)) as [a1 h1] eqn:R1.
  destruct (side_of A h1) as [d|] eqn:S1; [|discriminate R].
  destruct (solveFromHotStart0 A col true up up MAX (OUpper col up :: h1)) as [a2 h2] eqn:R2.
  destruct (solveFromHotStart0 A col false lo ce MAX (OLower col ce :: h2)) as [a3 h3] eqn:R3.
  destruct (side_of A h3) as [u|] eqn:S3; [|discriminate R].
  destruct (solveFromHotStart0 A col false lo lo MAX (OLower col lo :: h3)) as [a4 h4] eqn:R4.
  injection R as <- <- <-.
  destruct (one_side b m col true up fl h a1 h1 a2 h2 BU H M R1 R2) as (V1 & B2 & H2 & M2).
  assert (M2' : marked_at b h2 h2) by (apply (mark_same b _ h); [apply same_sym; exact B2|exact M2]).
  destruct (one_side b m col false lo ce h2 a3 h3 a4 h4 (bound_same _ _ _ _ _ _ B2 BL) H2 M2' R3 R4) as (V3 & B4 & H4 & M4).
  split; [apply (same_trans _ _ _ _ B4 B2)|]. split; [exact H4|].
  split; [apply (mark_same b _ h2); [apply same_sym; exact B4|exact M4]|].
  split; [exists h1; split; assumption|]. exists h3. split; [|exact S3].
  apply (solved_same b h3 (OLower col ce :: h2)); [|exact V3]. apply same_under. exact B2.
Qed.

(** A whole list of variables: the hot start is released, the factorization is off, the bounds are the original ones, and every
    variable was judged at the original bounds with its own change. *)
Theorem probe_run_restores : forall b cols h l h', hot_state false h = Some false ->
  probe_run A MAX (fun k => lower_of (fst b) k) (fun k => upper_of (snd b) k) cols h = Some (l, h') ->
  same_bounds b h' h /\ hot_state false h' = Some false /\ fact_state false h' = false /\
  Forall2 (fun c r => let '(col, fl, ce) := c in reports b col (Some fl) (Some ce) h (fst r) (snd r)) cols l.
Proof.
  intros b cols h l h' H R. unfold probe_run in R.
  destruct (probe_all A MAX _ _ cols (OMark :: OFactOn :: h)) as [[l0 h1]|] eqn:E; [|discriminate R]. injection R as <- <-.
  assert (G : forall cols k l0 h1, same_bounds b k h -> hot_state false k = Some true -> marked_at b k k ->
    probe_all A MAX (fun k => lower_of (fst b) k) (fun k => upper_of (snd b) k) cols k = Some (l0, h1) ->
    same_bounds b h1 h /\ hot_state false h1 = Some true /\
    Forall2 (fun c r => let '(col, fl, ce) := c in reports b col (Some fl) (Some ce) h (fst r) (snd r)) cols l0).
  { clear. induction cols as [|[[col fl] ce] cols IH]; intros k l0 h1 B H M R.
    - injection R as <- <-. split; [exact B|]. split; [exact H|constructor].
    - cbn [probe_all] in R. destruct (probe_split A MAX col _ _ (Some fl) (Some ce) k) as [[[d u] k1]|] eqn:P; [|discriminate R].
      destruct (probe_all A MAX _ _ cols k1) as [[l1 k2]|] eqn:Q1; [|discriminate R]. injection R as <- <-.
      destruct (probe_split_restores b false col _ _ _ _ k d u k1 eq_refl eq_refl H M P) as (B1 & H1 & M1 & (kd & Vd & Sd) & ku & Vu & Su).
      destruct (IH k1 l1 k2 (same_trans _ _ _ _ B1 B) H1 M1 Q1) as (B2 & H2 & F).
      split; [exact B2|]. split; [exact H2|]. constructor; [|exact F].
      split; [exists kd|exists ku]; (split; [|assumption]); eapply solved_same; try eassumption; apply same_under; exact B. }
  assert (X1 : same_bounds b (OMark :: OFactOn :: h) h).
  { apply (same_trans _ _ _ _ (same_skip _ OMark _ eq_refl)). apply same_skip. reflexivity. }
  assert (X2 : hot_state false (OMark :: OFactOn :: h) = Some true) by (cbn [hot_state]; rewrite H; reflexivity).
  assert (X3 : marked_at b (OMark :: OFactOn :: h) (OMark :: OFactOn :: h)).
  { exists (OFactOn :: h). split; [reflexivity|]. apply same_sym. apply same_skip. reflexivity. }
  destruct (G cols _ l0 h1 X1 X2 X3 E) as (B1 & H1 & F).
  split; [apply (same_trans _ _ _ _ (same_skip _ OFactOff _ eq_refl)); apply (same_trans _ _ _ _ (same_skip _ OUnmark _ eq_refl)); exact B1|].
  split; [cbn [hot_state]; rewrite H1; reflexivity|]. split; [reflexivity|exact F].
Qed.
End Probe.

(** The probe of the cleaning: both sides are judged at the original bounds with one change, and nothing is left. *)
Theorem probe_clean_restores : forall A b m col lo up fl ce h down upw h',
  bound_is b h false col lo -> bound_is b h true col up -> hot_state m h = Some true -> marked_at b h h ->
  probe_clean A col lo up fl ce h = (down, upw, h') ->
  same_bounds b h' h /\ hot_state m h' = Some true /\ marked_at b h' h' /\
  (exists k, solved_at b k (OUpper col fl :: h) /\ down = negb (q_pinf A k)) /\
  (exists k, solved_at b k (OLower col ce :: h) /\ upw = negb (q_pinf A k)).
Proof.
  intros A b m col lo up fl ce h down upw h' BL BU H M R. unfold probe_clean in R.
  destruct (solveFromHotStart0 A col true up fl 2 (OUpper col fl :: h)) as [a1 h1] eqn:R1.
  destruct (solveFromHotStart0 A col false lo ce 2 (OLower col ce :: OHot :: OUpper col up :: h1)) as [a3 h3] eqn:R3.
  injection R as <- <- <-.
  assert (N : 2 <> 0) by discriminate.
  destruct (hot0 _ _ _ _ _ _ _ _ _ R1) as [v1 S1]. destruct (hot0 _ _ _ _ _ _ _ _ _ R3) as [v3 S3].
  pose proof (hot_bounds _ _ _ _ _ _ _ _ _ _ _ S1 b (bound_here b h true col fl)) as B1.
  pose proof (hot_bounds _ _ _ _ _ _ _ _ _ _ _ S3 b (bound_here b _ false col ce)) as B3.
  assert (BK1 : same_bounds b (OHot :: OUpper col up :: h1) h).
  { apply (same_trans _ _ _ _ (same_skip _ OHot _ eq_refl)).
    apply (same_trans _ _ (OUpper col up :: OUpper col fl :: h)); [apply same_under; exact B1|].
    apply (same_trans _ _ _ _ (same_twice _ _ true _ _ _)). apply (same_side b h true). exact BU. }
  assert (BK3 : same_bounds b (OHot :: OLower col lo :: h3) h).
  { apply (same_trans _ _ _ _ (same_skip _ OHot _ eq_refl)).
    apply (same_trans _ _ (OLower col lo :: OLower col ce :: OHot :: OUpper col up :: h1)); [apply same_under; exact B3|].
    apply (same_trans _ _ _ _ (same_twice _ _ false _ _ _)).
    apply (same_trans _ _ (OLower col lo :: h)); [apply same_under; exact BK1|]. apply (same_side b h false). exact BL. }
  assert (P1 : hot_state m h1 = Some true).
  { apply (hot_protocol _ _ _ _ _ _ _ _ _ _ _ S1 m). cbn [hot_state]. rewrite H. reflexivity. }
  assert (P3 : hot_state m h3 = Some true).
  { apply (hot_protocol _ _ _ _ _ _ _ _ _ _ _ S3 m). cbn [hot_state]. rewrite P1. reflexivity. }
  assert (M1 : marked_at b h1 h).
  { apply (mark_same b _ (OUpper col up :: OUpper col fl :: h)).
    - apply (same_trans _ _ _ _ (same_twice _ _ true _ _ _)). apply (same_side b h true). exact BU.
    - apply (hot_mark _ _ _ _ _ _ _ _ _ _ _ S1 b N). apply (mark_same b _ h); [|exact M].
      apply same_sym. apply (same_trans _ _ _ _ (same_twice _ _ true _ _ _)). apply (same_side b h true). exact BU. }
  assert (M3 : marked_at b h3 h).
  { assert (X : same_bounds b (OLower col lo :: OLower col ce :: OHot :: OUpper col up :: h1) h).
    { apply (same_trans _ _ _ _ (same_twice _ _ false _ _ _)).
      apply (same_trans _ _ (OLower col lo :: h)); [apply same_under; exact BK1|]. apply (same_side b h false). exact BL. }
    apply (mark_same b _ _ _ X). apply (hot_mark _ _ _ _ _ _ _ _ _ _ _ S3 b N). apply (mark_same b _ h); [apply same_sym; exact X|exact M1]. }
  split; [exact BK3|]. split; [cbn [hot_state]; rewrite P3; reflexivity|].
  split; [apply (mark_same b _ h); [apply same_sym; exact BK3|exact M3]|].
  split.
  - exists h1. split; [|reflexivity]. exact (proj1 (hot_solved _ _ _ _ _ _ _ _ _ _ _ S1 b (bound_here b _ true col fl))).
  - exists h3. split; [|reflexivity].
    apply (solved_same b h3 (OLower col ce :: OHot :: OUpper col up :: h1)); [apply same_under; exact BK1|].
    exact (proj1 (hot_solved _ _ _ _ _ _ _ _ _ _ _ S3 b (bound_here b _ false col ce))).
Qed.

(** ** Strong branching inside the tree. *)
Definition change_below (n : nat) (o : op) : Prop := match o with OLower j _ | OUpper j _ => (j < n)%nat | _ => False end.
Section Strong.
Context (b : bounds) (n : nat) (eqb : option Q -> option Q -> bool) (eqb_eq : forall x y, eqb x y = true -> x = y).
Notation lo := (fun k => lower_of (fst b) k). Notation up := (fun k => upper_of (snd b) k).

Lemma restore_col_spec : forall sl su h j,
  let h' := restore_col lo up eqb sl su h j in
  (lower_of (fst b) h' j = sl j /\ upper_of (snd b) h' j = su j) /\
  (forall i, i <> j -> lower_of (fst b) h' i = lower_of (fst b) h i /\ upper_of (snd b) h' i = upper_of (snd b) h i) /\
  (forall m, hot_state m h' = hot_state m h) /\ (forall r, marked_at b h r -> marked_at b h' r).
Proof.
  intros sl su h j h'. unfold h', restore_col.
  destruct (eqb (sl j) (lower_of (fst b) h j)) eqn:E1.
  - destruct (eqb (su j) (upper_of (snd b) h j)) eqn:E2.
    + apply eqb_eq in E1, E2. split; [split; congruence|]. split; [intros; split; reflexivity|]. split; [reflexivity|intros r X; exact X].
    + apply eqb_eq in E1. cbn [lower_of upper_of]. rewrite Nat.eqb_refl. split; [split; congruence|].
      split; [intros i N; apply Nat.eqb_neq in N; rewrite N; split; reflexivity|].
      split; [intros m; cbn [hot_state]; destruct (hot_state m h) as [[]|]; reflexivity|intros r X; exact X].
  - destruct (eqb (su j) (upper_of (snd b) (OLower j (sl j) :: h) j)) eqn:E2.
    + apply eqb_eq in E2. cbn [lower_of upper_of] in E2 |- *. rewrite Nat.eqb_refl. split; [split; congruence|].
      split; [intros i N; apply Nat.eqb_neq in N; rewrite N; split; reflexivity|].
      split; [intros m; cbn [hot_state]; destruct (hot_state m h) as [[]|]; reflexivity|intros r X; exact X].
    + cbn [lower_of upper_of]. rewrite Nat.eqb_refl. split; [split; congruence|].
      split; [intros i N; apply Nat.eqb_neq in N; rewrite N; split; reflexivity|].
      split; [intros m; cbn [hot_state]; destruct (hot_state m h) as [[]|]; reflexivity|intros r X; exact X].
Qed.
Lemma restore_spec : forall sl su l h,
  let h' := fold_left (restore_col lo up eqb sl su) l h in
  (forall i, In i l -> lower_of (fst b) h' i = sl i /\ upper_of (snd b) h' i = su i) /\
  (forall i, ~ In i l -> lower_of (fst b) h' i = lower_of (fst b) h i /\ upper_of (snd b) h' i = upper_of (snd b) h i) /\
  (forall m, hot_state m h' = hot_state m h) /\ (forall r, marked_at b h r -> marked_at b h' r).
Proof.
  intros sl su l. induction l as [|j l IH]; intros h; cbn [fold_left].
  - split; [intros i []|]. split; [intros; split; reflexivity|]. split; [reflexivity|intros r X; exact X].
  - destruct (restore_col_spec sl su h j) as (A1 & A2 & A3 & A4). destruct (IH (restore_col lo up eqb sl su h j)) as (B1 & B2 & B3 & B4).
    split.
    { intros i X. destruct (in_dec Nat.eq_dec i l) as [Y|Y]; [exact (B1 i Y)|].
      destruct X as [->|X]; [|contradiction]. destruct (B2 i Y) as [-> ->]. exact A1. }
    split.
    { intros i X. destruct (B2 i) as [-> ->]; [intros Y; apply X; right; exact Y|]. apply A2. intros ->. apply X. left. reflexivity. }
    split; [intros m; rewrite B3; apply A3|]. intros r X. apply B4, A4, X.
Qed.
Lemma changes_below : forall d h, Forall (change_below n) d ->
  (forall i, (n <= i)%nat -> lower_of (fst b) (d ++ h) i = lower_of (fst b) h i /\ upper_of (snd b) (d ++ h) i = upper_of (snd b) h i) /\
  (forall m, hot_state m (d ++ h) = hot_state m h) /\ (forall r, marked_at b h r -> marked_at b (d ++ h) r).
Proof.
  intros d h F. induction F as [|o d Fo F (I1 & I2 & I3)]; cbn [app].
  - split; [intros; split; reflexivity|]. split; [reflexivity|intros r X; exact X].
  - destruct o; try contradiction Fo; cbn [change_below] in Fo; cbn [lower_of upper_of].
    + split; [intros i L; destruct (Nat.eqb_spec i j); [lia|]; apply I1; exact L|].
      split; [intros m; cbn [hot_state]; rewrite I2; destruct (hot_state m h) as [[]|]; reflexivity|]. exact I3.
    + split; [intros i L; destruct (Nat.eqb_spec i j); [lia|]; apply I1; exact L|].
      split; [intros m; cbn [hot_state]; rewrite I2; destruct (hot_state m h) as [[]|]; reflexivity|]. exact I3.
Qed.
Lemma try_side : forall d h0 h, Forall (change_below n) d -> same_bounds b h h0 ->
  let h' := restore_all lo up eqb n (lower_of (fst b) h0) (upper_of (snd b) h0) (OHot :: d ++ h) in
  same_bounds b h' h0 /\ (forall m, hot_state m h = Some true -> hot_state m h' = Some true) /\ (forall r, marked_at b h r -> marked_at b h' r).
Proof.
  intros d h0 h F S h'. destruct (changes_below d h F) as (C1 & C2 & C3).
  destruct (restore_spec (lower_of (fst b) h0) (upper_of (snd b) h0) (seq 0 n) (OHot :: d ++ h)) as (R1 & R2 & R3 & R4).
  split; [|split].
  - intros i. destruct (in_dec Nat.eq_dec i (seq 0 n)) as [Y|Y]; [exact (R1 i Y)|].
    unfold h', restore_all. destruct (R2 i Y) as [-> ->]. cbn [lower_of upper_of]. destruct (C1 i) as [-> ->]; [|exact (S i)].
    destruct (le_lt_dec n i) as [L|L]; [exact L|]. exfalso. apply Y. apply in_seq. lia.
  - intros m E. unfold h', restore_all. rewrite R3. cbn [hot_state]. rewrite C2, E. reflexivity.
  - intros r X. unfold h', restore_all. apply R4. destruct (C3 r X) as (x & E & Y). exists x. split; [exact E|exact Y].
Qed.

(** However many candidates are tried and whenever the loop stops, the bounds are what they were, and the hot start is
    properly used and released. *)
Theorem strong_restores : forall stop cands h,
  Forall (fun c => Forall (change_below n) (fst c) /\ Forall (change_below n) (snd c)) cands -> hot_state false h = Some false ->
  let h' := strong_run lo up eqb n stop cands h in
  same_bounds b h' h /\ hot_state false h' = Some false.
Proof.
  intros stop cands h F H. cbv zeta. unfold strong_run.
  assert (G : forall cands k, Forall (fun c => Forall (change_below n) (fst c) /\ Forall (change_below n) (snd c)) cands ->
    same_bounds b k (OMark :: h) -> hot_state false k = Some true ->
    let k' := strong_loop lo up eqb n (lower_of (fst b) (OMark :: h)) (upper_of (snd b) (OMark :: h)) stop cands k in
    same_bounds b k' (OMark :: h) /\ hot_state false k' = Some true).
  { clear F. induction cands0 as [|[d u] cs IH]; intros k F S E; cbn [strong_loop]; [split; assumption|].
    pose proof (Forall_inv F) as [Fd Fu]. cbn [fst snd] in Fd, Fu.
    destruct (try_side d (OMark :: h) k Fd S) as (S1 & E1 & _). specialize (E1 _ E).
    destruct (try_side u (OMark :: h) _ Fu S1) as (S2 & E2 & _). specialize (E2 _ E1).
    destruct (stop _); [split; assumption|]. exact (IH _ (Forall_inv_tail F) S2 E2). }
  destruct (G cands (OMark :: h) F (same_refl _ _)) as (S & E); [cbn [hot_state]; rewrite H; reflexivity|].
  split; [|cbn [hot_state]; rewrite E; reflexivity].
  apply (same_trans _ _ _ _ (same_skip _ OUnmark _ eq_refl)). apply (same_trans _ _ _ _ S). apply same_skip. reflexivity.
Qed.

Lemma hots_restore : forall sl su l h, hots (fold_left (restore_col lo up eqb sl su) l h) = hots h.
Proof.
  intros sl su l. induction l as [|j l IH]; intros h; cbn [fold_left]; [reflexivity|]. rewrite IH. unfold restore_col.
  destruct (eqb (sl j) _); destruct (eqb (su j) _); reflexivity.
Qed.
Lemma hots_changes : forall d h, Forall (change_below n) d -> hots (d ++ h) = hots h.
Proof. intros d h F. induction F as [|o d Fo F IH]; [reflexivity|]. destruct o; try contradiction Fo; exact IH. Qed.
Lemma same_app : forall d h k, same_bounds b h k -> same_bounds b (d ++ h) (d ++ k).
Proof. intros d h k S. induction d as [|o d IH]; [exact S|]. cbn [app]. apply same_under. exact IH. Qed.
(** Every side was tried at the original bounds with the changes of that side alone; every candidate tried, both sides. *)
Theorem strong_judges : forall stop cands h,
  Forall (fun c => Forall (change_below n) (fst c) /\ Forall (change_below n) (snd c)) cands ->
  exists tried rest, cands = tried ++ rest /\ exists new, hots (strong_run lo up eqb n stop cands h) = new ++ hots h /\
    Forall2 (fun k d => same_bounds b k (d ++ h)) (rev new) (flat_map (fun c => [fst c; snd c]) tried) /\
    ((forall k, stop k = false) -> rest = []).
Proof.
  intros stop cands h F. unfold strong_run. cbv zeta. cbn [hots].
  set (h0 := OMark :: h). assert (S0 : same_bounds b h0 h) by (apply same_skip; reflexivity).
  change (hots h) with (hots h0).
  cut (forall k, same_bounds b k h0 -> exists tried rest, cands = tried ++ rest /\ exists new,
    hots (strong_loop lo up eqb n (lower_of (fst b) h0) (upper_of (snd b) h0) stop cands k) = new ++ hots k /\
    Forall2 (fun k d => same_bounds b k (d ++ h)) (rev new) (flat_map (fun c => [fst c; snd c]) tried) /\
    ((forall k, stop k = false) -> rest = [])).
  { intros G. exact (G h0 (same_refl _ _)). }
  clearbody h0. induction cands as [|[d u] cs IH]; intros k S; cbn [strong_loop].
  { exists [], []. split; [reflexivity|]. exists []. split; [reflexivity|]. split; [constructor|reflexivity]. }
  pose proof (Forall_inv F) as [Fd Fu]. cbn [fst snd] in Fd, Fu.
  destruct (try_side d h0 k Fd S) as (S1 & _ & _).
  destruct (try_side u h0 _ Fu S1) as (S2 & _ & _).
  set (k1 := restore_all lo up eqb n (lower_of (fst b) h0) (upper_of (snd b) h0) (OHot :: d ++ k)) in *.
  set (k2 := restore_all lo up eqb n (lower_of (fst b) h0) (upper_of (snd b) h0) (OHot :: u ++ k1)) in *.
  assert (E1 : hots k1 = (d ++ k) :: hots k).
  { unfold k1, restore_all. rewrite hots_restore. cbn [hots]. rewrite (hots_changes _ _ Fd). reflexivity. }
  assert (E2 : hots k2 = (u ++ k1) :: (d ++ k) :: hots k).
  { unfold k2, restore_all. rewrite hots_restore. cbn [hots]. rewrite (hots_changes _ _ Fu), E1. reflexivity. }
  assert (Bd : same_bounds b (d ++ k) (d ++ h)) by (apply same_app; apply (same_trans _ _ _ _ S S0)).
  assert (Bu : same_bounds b (u ++ k1) (u ++ h)) by (apply same_app; apply (same_trans _ _ _ _ S1 S0)).
  destruct (stop k2) eqn:St.
  - exists [(d, u)], cs. split; [reflexivity|]. exists [u ++ k1; d ++ k]. split; [exact E2|].
    split; [constructor; [exact Bd|constructor; [exact Bu|constructor]]|]. intros N. rewrite N in St. discriminate St.
  - destruct (IH (Forall_inv_tail F) k2 S2) as (tried & rest & -> & new & E & F2 & R).
    exists ((d, u) :: tried), rest. split; [reflexivity|]. exists (new ++ [u ++ k1; d ++ k]). split; [rewrite E, E2, <- app_assoc; reflexivity|].
    split; [|exact R]. rewrite rev_app_distr. cbn [rev app flat_map fst snd]. constructor; [exact Bd|]. constructor; [exact Bu|exact F2].
Qed.
End Strong.

(** If the chooser is given copies of the bounds instead of the solver's own arrays, nothing is restored: refuted for such calls. *)
Definition q_eqb (x y : option Q) : bool :=
  match x, y with
  | None, None => true
  | Some a, Some c => Z.eqb (Qnum a) (Qnum c) && Pos.eqb (Qden a) (Qden c)
  | _, _ => false
  end.
Lemma q_eqb_eq : forall x y, q_eqb x y = true -> x = y.
Proof.
  intros [[a p]|] [[c q]|] E; try discriminate E; [|reflexivity]. cbn [q_eqb Qnum Qden] in E. apply andb_prop in E. destruct E as [E1 E2].
  apply Z.eqb_eq in E1. apply Pos.eqb_eq in E2. subst. reflexivity.
Qed.
Definition unit_box : bounds := (fun _ => Some 0%Q, fun _ => Some 1%Q).
Theorem strong_copies_refuted : exists cands, Forall (fun c => Forall (change_below 1) (fst c) /\ Forall (change_below 1) (snd c)) cands /\
  ~ same_bounds unit_box (strong_run (fun _ => fst unit_box) (fun _ => snd unit_box) q_eqb 1 (fun _ => false) cands []) [].
Proof.
  exists [([OUpper 0 (Some 0%Q)], [OLower 0 (Some 1%Q)])]. split.
  - repeat constructor.
  - intros S. destruct (S 0%nat) as [S1 _]. vm_compute in S1. discriminate S1.
Qed.
Example strong_example : 
  let cands := [([OUpper 0 (Some 0%Q)], [OLower 0 (Some 1%Q)]); ([OUpper 1 (Some 0%Q)], [OLower 1 (Some 1%Q)])] in
  Forall (fun c => Forall (change_below 2) (fst c) /\ Forall (change_below 2) (snd c)) cands /\
  strong_run (fun k => lower_of (fst unit_box) k) (fun k => upper_of (snd unit_box) k) q_eqb 2 (fun _ => false) cands [] =
  [OUnmark; OLower 1 (Some 0%Q); OHot; OLower 1 (Some 1%Q); OUpper 1 (Some 1%Q); OHot; OUpper 1 (Some 0%Q);
   OLower 0 (Some 0%Q); OHot; OLower 0 (Some 1%Q); OUpper 0 (Some 1%Q); OHot; OUpper 0 (Some 0%Q); OMark].
Proof. split; [repeat constructor|vm_compute; reflexivity]. Qed.

(** ** Checking optimality. *)
Section Check.
Context (A : answers) (clp exitd : bool) (tl : Q) (max : Z).

Definition after (r : checked) : history := match r with Returned _ h => h | Exited h => h end.
(** Operations that do not touch the problem. *)
Definition neutral (o : op) : Prop :=
  match o with OResolve | OClean _ | ODual | OStatus _ | OFactOn | OFactOff | OLimit _ => True | _ => False end.

Lemma last_facts : forall mx c h, let r := check_last A exitd mx c h in
  (after r = h \/ c < mx /\ q_opt A h = false /\ after r = OResolve :: h) /\
  match r with
  | Returned true h' => q_opt A h' = true /\ q_pinf A h' = false
  | Returned false h' => q_pinf A h' = true \/ q_opt A h' = false \/ q_dinf A h' = true /\ exitd = false
  | Exited h' => exitd = true /\ q_dinf A h' = true /\ q_pinf A h' = false
  end.
Proof.
  intros mx c h. cbv zeta. unfold check_last. destruct (q_pinf A h) eqn:P; [split; [left; reflexivity|left; exact P]|].
  destruct (q_opt A h) eqn:O; cbn [negb]; [split; [left; reflexivity|split; assumption]|].
  destruct (Z.ltb_spec c mx) as [L|L].
  - set (k := OResolve :: h). destruct (q_pinf A k) eqn:P1; [|destruct (q_dinf A k) eqn:D1; [destruct exitd eqn:X|destruct (q_opt A k) eqn:O1]];
      cbn [negb after]; (split; [right; split; [exact L|split; reflexivity]|]); auto.
  - destruct (q_pinf A h) eqn:P1; [discriminate P|]. destruct (q_dinf A h) eqn:D1; [destruct exitd eqn:X|rewrite O];
      cbn [negb after]; (split; [left; reflexivity|]); auto.
Qed.
(** With a status that is one thing at a time, more is known about the last part when the program goes on. *)
Lemma last_no_exit : forall mx c h, exclusive A -> exitd = true -> forall v h', check_last A exitd mx c h = Returned v h' ->
  q_pinf A h' = true \/ q_dinf A h' = false.
Proof.
  intros mx c h X E v h' R. unfold check_last in R. rewrite E in R.
  destruct (q_pinf A h) eqn:P; [injection R as <- <-; left; exact P|].
  destruct (q_opt A h) eqn:O; cbn [negb] in R; [injection R as <- <-; right; exact (proj2 (X _ O))|].
  set (k := if c <? mx then OResolve :: h else h) in R. destruct (q_pinf A k) eqn:P1; [injection R as <- <-; left; exact P1|].
  destruct (q_dinf A k) eqn:D1; [discriminate R|]. destruct (q_opt A k); cbn [negb] in R; injection R as <- <-; right; exact D1.
Qed.

Lemma deadline_app : forall t a c, deadline a = Some t -> deadline (a ++ c) = Some t.
Proof. intros t a c. induction a as [|o a IH]; [discriminate|]. destruct o; cbn [deadline app]; auto. Qed.
Lemma timed_app : forall t a c, timed t a -> timed t c -> timed t (a ++ c).
Proof.
  intros t a c Ha Hc. induction a as [|o a IH]; [exact Hc|]. destruct o; cbn [timed app] in *; auto.
  destruct Ha as [D Ha]. split; [apply deadline_app; exact D|auto].
Qed.
Lemma count_app : forall p a c, SolveSpec.count p (a ++ c) = (SolveSpec.count p a + SolveSpec.count p c)%nat.
Proof. intros p a c. unfold SolveSpec.count. rewrite filter_app, app_length. reflexivity. Qed.

(** What is known about the operations of a check before its last part. *)
Record upto (tr : history) (r : nat) := {
  u_neutral : Forall neutral tr;
  u_resolves : SolveSpec.count is_resolve tr = r;
  u_clean : SolveSpec.count is_clean tr = 0%nat;
  u_fact : fact_state false tr = false;
  u_timed : timed tl tr;
  u_deadline : (0 < r)%nat -> deadline tr = Some tl }.
Lemma fact_app : forall a c, fact_state false a = false -> fact_state false c = false -> fact_state false (a ++ c) = false.
Proof. intros a c. induction a as [|o a IH]; [auto|]. destruct o; cbn [fact_state app]; auto. Qed.
Lemma deadline_tail : forall t a c, deadline c = Some t -> (forall s, deadline a = Some s -> s = t) -> deadline (a ++ c) = Some t.
Proof. intros t a c Hc. induction a as [|o a IH]; intros Ha; [exact Hc|]. destruct o; cbn [deadline app] in *; auto. f_equal. apply Ha. reflexivity. Qed.
Lemma upto_app : forall a c r s, upto a r -> upto c s -> (forall t, deadline a = Some t -> t = tl) -> upto (a ++ c) (r + s).
Proof.
  intros a c r s Ha Hc D. constructor.
  - apply Forall_app. split; [apply Ha|apply Hc].
  - rewrite count_app, (u_resolves _ _ Ha), (u_resolves _ _ Hc). reflexivity.
  - rewrite count_app, (u_clean _ _ Ha), (u_clean _ _ Hc). reflexivity.
  - apply fact_app; [apply Ha|apply Hc].
  - apply timed_app; [apply Ha|apply Hc].
  - intros L. destruct (Nat.eq_dec r 0) as [->|N].
    + apply deadline_tail; [apply Hc; exact L|exact D].
    + apply deadline_app. apply Ha. lia.
Qed.
Lemma upto_nil : upto [] 0. Proof. constructor; try reflexivity; try constructor. intros X. lia. Qed.
Lemma upto_resolve : upto [OResolve; OLimit tl] 1.
Proof. constructor; try reflexivity; repeat constructor. Qed.

Lemma loop_facts : forall fuel c i h c' h', 0 <= c -> resolve_loop A tl fuel c i h = (c', h') ->
  exists tr r, h' = tr ++ h /\ upto tr r /\ (forall t, deadline tr = Some t -> t = tl) /\ c' = c + Z.of_nat r /\ (r <= fuel)%nat /\
    ((0 < fuel)%nat -> c = 0 -> (1 <= r)%nat).
Proof.
  induction fuel as [|fuel IH]; intros c i h c' h' C R; cbn [resolve_loop] in R.
  - injection R as <- <-. exists [], 0%nat. split; [reflexivity|]. split; [exact upto_nil|]. split; [discriminate|]. split; [lia|]. split; lia.
  - match type of R with (if ?x then _ else _) = _ => destruct x eqn:B end.
    + assert (C' : 0 <= c + 1) by lia. destruct (IH _ _ _ _ _ C' R) as (tr & r & -> & U & D & -> & Bd & Ne).
      exists (tr ++ [OResolve; OLimit tl]), (r + 1)%nat. rewrite <- app_assoc. cbn [app]. split; [reflexivity|].
      split; [apply upto_app; [exact U|exact upto_resolve|exact D]|].
      split; [|split; [lia|]; split; lia]. intros t E. rewrite (deadline_tail tl) in E; [injection E as <-; reflexivity|reflexivity|exact D].
    + injection R as <- <-. exists [], 0%nat. apply orb_false_elim in B. destruct B as [_ B]. apply Z.eqb_neq in B.
      split; [reflexivity|]. split; [exact upto_nil|]. split; [discriminate|]. split; [lia|]. split; lia.
Qed.

(** A check is its operations up to the last part, and the last part: after a cleanup without any more solves, or with the count of
    re-solves. *)
Lemma check_shape : forall h, exists tr r, upto tr r /\
  ((exists k, clp = true /\ 0 < max /\ checkSolverOptimality A clp exitd tl max h = check_last A exitd 0 0 (OClean k :: tr ++ h)
     /\ Z.of_nat r <= max + 1 /\ cleanup_choice A (tr ++ h) = Some k)
   \/ (exists c, checkSolverOptimality A clp exitd tl max h = check_last A exitd max c (tr ++ h) /\ Z.of_nat r <= c
     /\ (Z.of_nat r <= Z.max max 0 + 1) /\ (clp = true -> 0 < max -> (1 <= r)%nat) /\ ((clp = false \/ max <= 0) -> tr = [] /\ r = 0%nat)
     /\ (clp = true -> 1 < max -> cleanup_choice A (tr ++ h) = None))).
Proof.
  intros h. unfold checkSolverOptimality. destruct (clp && (0 <? max)) eqn:B.
  2:{ exists [], 0%nat. split; [exact upto_nil|]. right. exists 0. split; [reflexivity|]. split; [lia|]. split; [lia|].
      split; [intros -> M; apply Z.ltb_lt in M; rewrite M in B; discriminate B|].
      split; [intros _; split; reflexivity|]. intros -> M. assert (M' : 0 < max) by lia. apply Z.ltb_lt in M'. rewrite M' in B. discriminate B. }
  apply andb_prop in B. destruct B as [Bc Bm]. apply Z.ltb_lt in Bm.
  assert (P : exists tr0 r0, upto tr0 r0 /\ (r0 = 0%nat \/ r0 = 1%nat) /\ (forall t, deadline tr0 = Some t -> t = tl) /\
    (if q_pinf A h then (1, OResolve :: OLimit tl :: h) else (0, h)) = (Z.of_nat r0, tr0 ++ h)).
  { destruct (q_pinf A h).
    - exists [OResolve; OLimit tl], 1%nat. split; [exact upto_resolve|]. split; [right; reflexivity|].
      split; [intros t E; injection E as <-; reflexivity|reflexivity].
    - exists [], 0%nat. split; [exact upto_nil|]. split; [left; reflexivity|]. split; [discriminate|reflexivity]. }
  destruct P as (tr0 & r0 & U0 & R0 & D0 & ->).
  destruct (Z.ltb_spec (Z.of_nat r0) max) as [L|L].
  2:{ exists tr0, r0. split; [exact U0|]. right. exists (Z.of_nat r0). split; [reflexivity|]. split; [lia|]. split; [lia|].
      split; [lia|]. split; [intros [E|E]; [congruence|lia]|lia]. }
  destruct (cleanup_choice A (tr0 ++ h)) as [k|] eqn:CC0.
  { exists tr0, r0. split; [exact U0|]. left. exists k. split; [exact Bc|]. split; [exact Bm|]. split; [reflexivity|]. split; [lia|exact CC0]. }
  cbv zeta. set (oldD := q_dinf A (tr0 ++ h)). set (oldO := q_opt A (tr0 ++ h)). clearbody oldD oldO.
  destruct (resolve_loop A tl (Z.to_nat (max - Z.of_nat r0)) (Z.of_nat r0) None (tr0 ++ h)) as [c1 h1] eqn:RL.
  destruct (loop_facts _ _ _ _ _ _ (Nat2Z.is_nonneg r0) RL) as (tr1 & r1 & -> & U1 & D1 & -> & Bd & Ne).
  assert (N1 : (1 <= r1 + r0)%nat) by lia.
  rewrite app_assoc. pose proof (upto_app _ _ _ _ U1 U0 D1) as U01.
  assert (D01 : forall t, deadline (tr1 ++ tr0) = Some t -> t = tl).
  { intros t E. rewrite (u_deadline _ _ U01) in E by lia. injection E as <-. reflexivity. }
  assert (C1 : Z.of_nat r0 + Z.of_nat r1 = Z.of_nat (r1 + r0)) by lia. rewrite C1.
  assert (B1 : Z.of_nat (r1 + r0) <= max) by lia.
  set (tr := tr1 ++ tr0) in *. set (r := (r1 + r0)%nat) in *. clearbody tr r.
  assert (P2 : exists tr2 c2, upto (tr2 ++ tr) r /\ Z.of_nat r <= c2 <= max /\
    (if oldD && q_pinf A (tr ++ h)
     then if negb (q_dinf A (ODual :: tr ++ h)) && negb (q_opt A (ODual :: tr ++ h))
          then (max, OStatus 2 :: ODual :: tr ++ h) else (Z.of_nat r, ODual :: tr ++ h)
     else (Z.of_nat r, tr ++ h)) = (c2, (tr2 ++ tr) ++ h)).
  { assert (UD : upto (ODual :: tr) r) by (destruct U01; constructor; cbn; auto; constructor; [exact Logic.I|assumption]).
    assert (US : upto (OStatus 2 :: ODual :: tr) r) by (destruct UD; constructor; cbn; auto; constructor; [exact Logic.I|assumption]).
    destruct (oldD && _); [destruct (_ && _)|].
    - exists [OStatus 2; ODual], max. split; [exact US|]. split; [lia|reflexivity].
    - exists [ODual], (Z.of_nat r). split; [exact UD|]. split; [lia|reflexivity].
    - exists [], (Z.of_nat r). split; [exact U01|]. split; [lia|reflexivity]. }
  destruct P2 as (tr2 & c2 & U2 & B2 & EQ2).
  match goal with |- context [let '(_, _) := ?X in _] => replace X with (c2, (tr2 ++ tr) ++ h) by (symmetry; exact EQ2) end. clear EQ2. set (tr' := tr2 ++ tr) in *. clearbody tr'. clear U01.
  assert (P3 : exists tr3 r3 c3, upto tr3 r3 /\ (r3 = r \/ r3 = S r) /\ Z.of_nat r3 <= c3 <= max + 1 /\
    (if oldO && q_pinf A (tr' ++ h) then (c2 + 1, OFactOff :: OResolve :: OLimit tl :: OFactOn :: tr' ++ h) else (c2, tr' ++ h)) = (c3, tr3 ++ h)).
  { destruct (oldO && _).
    - exists (OFactOff :: OResolve :: OLimit tl :: OFactOn :: tr'), (S r), (c2 + 1). split; [|split; [right; reflexivity|]; split; [lia|reflexivity]].
      destruct U2 as [V1 V2 V3 V4 V5 V6]. constructor; try reflexivity.
      + repeat (constructor; [exact Logic.I|]). exact V1.
      + unfold SolveSpec.count in *. cbn. congruence.
      + exact V3.
      + cbn [timed]. split; [reflexivity|exact V5].
    - exists tr', r, c2. split; [exact U2|]. split; [left; reflexivity|]. split; [lia|reflexivity]. }
  destruct P3 as (tr3 & r3 & c3 & U3 & R3 & B3 & EQ3).
  match goal with |- context [let '(_, _) := ?X in _] => replace X with (c3, tr3 ++ h) by (symmetry; exact EQ3) end. clear EQ3.
  destruct (cleanup_choice A (tr3 ++ h)) as [k|] eqn:CC3.
  - exists tr3, r3. split; [exact U3|]. left. exists k. split; [exact Bc|]. split; [exact Bm|]. split; [reflexivity|]. split; [lia|exact CC3].
  - exists tr3, r3. split; [exact U3|]. right. exists c3. split; [reflexivity|]. split; [lia|]. split; [lia|]. split; [lia|].
    split; [intros [E|E]; [congruence|lia]|intros _ _; exact CC3].
Qed.

Notation run := (checkSolverOptimality A clp exitd tl max).
(** The answer: a positive one is the solver's own... *)
Theorem check_true : forall h h', run h = Returned true h' -> q_opt A h' = true /\ q_pinf A h' = false.
Proof.
  intros h h' R. destruct (check_shape h) as (tr & r & _ & [(k & _ & _ & E & _)|(c & E & _)]); rewrite E in R.
  - pose proof (proj2 (last_facts 0 0 (OClean k :: tr ++ h))) as F. rewrite R in F. exact F.
  - pose proof (proj2 (last_facts max c (tr ++ h))) as F. rewrite R in F. exact F.
Qed.
(** ... and for a solver whose status is one thing at a time the answer is whether it is optimal when the call returns. *)
Theorem check_answer : exclusive A -> forall h v h', run h = Returned v h' -> v = q_opt A h'.
Proof.
  intros X h v h' R. destruct v; [symmetry; exact (proj1 (check_true h h' R))|].
  assert (F : q_pinf A h' = true \/ q_opt A h' = false \/ q_dinf A h' = true /\ exitd = false).
  { destruct (check_shape h) as (tr & r & _ & [(k & _ & _ & E & _)|(c & E & _)]); rewrite E in R.
    - pose proof (proj2 (last_facts 0 0 (OClean k :: tr ++ h))) as F. rewrite R in F. exact F.
    - pose proof (proj2 (last_facts max c (tr ++ h))) as F. rewrite R in F. exact F. }
  destruct (q_opt A h') eqn:O; [|reflexivity]. destruct (X _ O) as [X1 X2]. destruct F as [F|[F|[F _]]]; congruence.
Qed.
(** The program is ended only when asked to, and then for a dual infeasible problem; and a call that was asked to and
    returns has found the problem not dual infeasible (or primal infeasible). *)
Theorem check_exit : forall h h', run h = Exited h' -> exitd = true /\ q_dinf A h' = true /\ q_pinf A h' = false.
Proof.
  intros h h' R. destruct (check_shape h) as (tr & r & _ & [(k & _ & _ & E & _)|(c & E & _)]); rewrite E in R.
  - pose proof (proj2 (last_facts 0 0 (OClean k :: tr ++ h))) as F. rewrite R in F. exact F.
  - pose proof (proj2 (last_facts max c (tr ++ h))) as F. rewrite R in F. exact F.
Qed.
Theorem check_no_exit : exclusive A -> exitd = true -> forall h v h', run h = Returned v h' -> q_pinf A h' = true \/ q_dinf A h' = false.
Proof.
  intros X Ex h v h' R. destruct (check_shape h) as (tr & r & _ & [(k & _ & _ & E & _)|(c & E & _)]); rewrite E in R.
  - exact (last_no_exit _ _ _ X Ex _ _ R).
  - exact (last_no_exit _ _ _ X Ex _ _ R).
Qed.

(** The operations of a whole call. *)
Lemma check_trace : forall h, exists tr, after (run h) = tr ++ h /\ Forall neutral tr /\
  Z.of_nat (SolveSpec.count is_resolve tr) <= Z.max max 0 + 1 /\ (SolveSpec.count is_clean tr <= 1)%nat /\
  (max <= 0 -> tr = []) /\ (clp = false -> tr = [] \/ tr = [OResolve]) /\
  fact_state false tr = false /\ (clp = true -> timed tl tr) /\
  (clp = true -> 0 < max -> (1 <= SolveSpec.count is_solve tr)%nat).
Proof.
  intros h. destruct (check_shape h) as (tr & r & U & [(k & Hc & Hm & E & B & _)|(c & E & B1 & B2 & B3 & B4 & _)]); rewrite E.
  - destruct (last_facts 0 0 (OClean k :: tr ++ h)) as [[F|(F & _)] _]; [|lia]. exists (OClean k :: tr). rewrite F. split; [reflexivity|].
    destruct U as [U1 U2 U3 U4 U5 U6]. split; [constructor; [exact Logic.I|exact U1]|].
    change (SolveSpec.count is_resolve (OClean k :: tr)) with (SolveSpec.count is_resolve tr).
    change (SolveSpec.count is_clean (OClean k :: tr)) with (S (SolveSpec.count is_clean tr)).
    split; [lia|]. split; [lia|]. split; [lia|]. split; [congruence|]. split; [exact U4|]. split; [intros _; exact U5|].
    intros _ _. unfold SolveSpec.count. cbn. lia.
  - destruct U as [U1 U2 U3 U4 U5 U6].
    assert (CS : (SolveSpec.count is_resolve tr <= SolveSpec.count is_solve tr)%nat).
    { clear. unfold SolveSpec.count. induction tr as [|o tr IH]; [apply le_n|]. destruct o; cbn; lia. }
    destruct (last_facts max c (tr ++ h)) as [[F|(F & _ & G)] _].
    + exists tr. rewrite F. split; [reflexivity|]. split; [exact U1|]. split; [lia|]. split; [lia|].
      split; [intros M; apply B4; right; exact M|]. split; [intros M; left; apply B4; left; exact M|]. split; [exact U4|].
      split; [intros _; exact U5|]. intros Hc Hm. specialize (B3 Hc Hm). lia.
    + exists (OResolve :: tr). rewrite G. split; [reflexivity|]. split; [constructor; [exact Logic.I|exact U1]|].
      change (SolveSpec.count is_resolve (OResolve :: tr)) with (S (SolveSpec.count is_resolve tr)).
      change (SolveSpec.count is_clean (OResolve :: tr)) with (SolveSpec.count is_clean tr).
      change (SolveSpec.count is_solve (OResolve :: tr)) with (S (SolveSpec.count is_solve tr)).
      split; [lia|]. split; [lia|]. split; [intros M; lia|].
      split; [intros M; right; f_equal; apply B4; left; exact M|]. split; [exact U4|].
      split; [intros Hc|lia]. split; [|exact U5]. apply U6.
      destruct (Z.ltb_spec 0 max) as [Hm|Hm]; [specialize (B3 Hc Hm); lia|]. lia.
Qed.
(** The problem and the hot start are not touched. *)
Theorem check_bounds : forall b h, same_bounds b (after (run h)) h /\ (forall m, hot_state m h <> None -> hot_state m (after (run h)) = hot_state m h).
Proof.
  intros b h. destruct (check_trace h) as (tr & -> & F & _). induction F as [|o tr Fo F [I1 I2]]; [split; [apply same_refl|reflexivity]|].
  cbn [app]. split.
  - apply (same_trans _ _ (tr ++ h)); [|exact I1]. apply same_skip. destruct o; try contradiction Fo; reflexivity.
  - intros m N. specialize (I2 m N). destruct o; try contradiction Fo; cbn [hot_state]; rewrite I2; destruct (hot_state m h) as [[]|]; congruence.
Qed.
(** At most one re-solve more than allowed, at most one cleanup; none at all if none is allowed; one at most for other solvers. *)
Theorem check_effort : forall h, exists tr, after (run h) = tr ++ h /\
  Z.of_nat (SolveSpec.count is_resolve tr) <= Z.max max 0 + 1 /\ (SolveSpec.count is_clean tr <= 1)%nat /\
  (max <= 0 -> tr = []) /\ (clp = false -> tr = [] \/ tr = [OResolve]).
Proof. intros h. destruct (check_trace h) as (tr & E & _ & B1 & B2 & B3 & B4 & _). exists tr. auto. Qed.
(** With Clp, every re-solve has the deadline, and the status is never taken without a new solve. *)
Theorem check_deadline : clp = true -> forall h, exists tr, after (run h) = tr ++ h /\ timed tl tr /\
  (0 < max -> (1 <= SolveSpec.count is_solve tr)%nat).
Proof. intros Hc h. destruct (check_trace h) as (tr & E & _ & _ & _ & _ & _ & _ & B5 & B6). exists tr. auto. Qed.
(** The factorization is left off, if it was off. *)
Theorem check_factorization : forall h, fact_state false h = false -> fact_state false (after (run h)) = false.
Proof. intros h H. destruct (check_trace h) as (tr & E & _ & _ & _ & _ & _ & B & _). rewrite E. apply fact_app; assumption. Qed.

Lemma not_zero : forall x, ~ (Qabs x < EPS7)%Q <-> isZero x EPS7 = false.
Proof. intros x. rewrite isZero_false_iff. split; [apply Qnot_lt_le|apply Qle_not_lt]. Qed.
(** Cleaning up.  The choice is the one the reported infeasibilities call for. *)
Lemma choice_iff : forall h k, cleanup_choice A h = Some k <-> calls_for A h k.
Proof.
  intros h k. unfold cleanup_choice, calls_for, primal_trouble, dual_trouble.
  assert (Zp : ~ (Qabs (q_sumP A h) < EPS7)%Q <-> isZero (q_sumP A h) EPS7 = false) by exact (not_zero _).
  assert (Zd : ~ (Qabs (q_sumD A h) < EPS7)%Q <-> isZero (q_sumD A h) EPS7 = false) by exact (not_zero _).
  rewrite Zp, Zd. clear Zp Zd. generalize (q_sec A h) as s. intro s. destruct (isZero (q_sumP A h) EPS7), (isZero (q_sumD A h) EPS7);
    destruct (Z.eqb_spec s 2), (Z.eqb_spec s 3), (Z.eqb_spec s 9), (Z.eqb_spec s 4); try lia;
    cbn [orb negb]; (split; [intros E; first [discriminate E|injection E as <-]|intros [[-> E]|[-> E]]]);
    first [reflexivity | left; split; [reflexivity|] | right; split; [reflexivity|] | idtac]; try (intuition congruence).
Qed.
(** With Clp and a limit, infeasibilities reported at the start (after the one re-solve of a problem reported infeasible) are cleaned up at
    once, and nothing else is done. *)
Theorem check_cleans : clp = true -> 0 < max -> forall h k,
  (q_pinf A h = false -> calls_for A h k -> after (run h) = OClean k :: h) /\
  (q_pinf A h = true -> 1 < max -> calls_for A (OResolve :: OLimit tl :: h) k -> after (run h) = OClean k :: OResolve :: OLimit tl :: h).
Proof.
  intros Hc Hm h k. unfold checkSolverOptimality. rewrite Hc, (proj2 (Z.ltb_lt _ _) Hm). cbn [andb].
  assert (L : forall x, after (check_last A exitd 0 0 x) = x).
  { intros x. destruct (last_facts 0 0 x) as [[F|(F & _)] _]; [exact F|lia]. }
  split; [intros P C|intros P M C]; rewrite P; [rewrite (proj2 (Z.ltb_lt 0 max) Hm)|rewrite (proj2 (Z.ltb_lt 1 max) M)];
    rewrite (proj2 (choice_iff _ _) C); apply L.
Qed.
(** A cleanup is always the last operation, and is the one called for at that time; without one, with more than one re-solve allowed, the
    status showed no such trouble before the last re-solve. *)
Theorem check_clean_why : clp = true -> forall h tr2 k tr1, after (run h) = tr2 ++ OClean k :: tr1 ++ h -> tr2 = [] /\ calls_for A (tr1 ++ h) k.
Proof.
  intros Hc h tr2 k tr1 E. change (OClean k :: tr1 ++ h) with ((OClean k :: tr1) ++ h) in E. rewrite app_assoc in E.
  destruct (check_shape h) as (tr & r & U & [(k' & _ & Hm & R & B & C)|(c & R & B1 & B2 & B3 & B4 & _)]); rewrite R in E.
  - destruct (last_facts 0 0 (OClean k' :: tr ++ h)) as [[F|(F & _)] _]; [|lia]. rewrite F in E.
    change (OClean k' :: tr ++ h) with ((OClean k' :: tr) ++ h) in E. apply app_inv_tail in E. destruct tr2 as [|o tr2].
    + cbn [app] in E. injection E as -> ->. split; [reflexivity|]. apply choice_iff. exact C.
    + cbn [app] in E. injection E as _ ->. pose proof (u_clean _ _ U) as N. rewrite count_app in N. unfold SolveSpec.count in N. cbn [filter is_clean length] in N. lia.
  - exfalso. pose proof (u_clean _ _ U) as N. destruct (last_facts max c (tr ++ h)) as [[F|(F & _ & G)] _].
    + rewrite F in E. apply app_inv_tail in E. rewrite E, count_app in N. unfold SolveSpec.count in N. cbn [filter is_clean length] in N. lia.
    + rewrite G in E. change (OResolve :: tr ++ h) with ((OResolve :: tr) ++ h) in E. apply app_inv_tail in E.
      destruct tr2 as [|o tr2]; [discriminate E|]. cbn [app] in E. injection E as _ E. rewrite E, count_app in N.
      unfold SolveSpec.count in N. cbn [filter is_clean length] in N. lia.
Qed.
Theorem check_clean_needed : clp = true -> 1 < max -> forall h, (exists k tr, after (run h) = OClean k :: tr ++ h) \/
  exists tr, (after (run h) = tr ++ h \/ after (run h) = OResolve :: tr ++ h) /\ forall k, ~ calls_for A (tr ++ h) k.
Proof.
  intros Hc Hm h. destruct (check_shape h) as (tr & r & U & [(k' & _ & _ & R & B & C)|(c & R & B1 & B2 & B3 & B4 & C)]); rewrite R.
  - left. exists k', tr. destruct (last_facts 0 0 (OClean k' :: tr ++ h)) as [[F|(F & _)] _]; [exact F|lia].
  - right. exists tr. split; [destruct (last_facts max c (tr ++ h)) as [[F|(F & _ & G)] _]; [left; exact F|right; exact G]|].
    intros k K. apply choice_iff in K. rewrite (C Hc Hm) in K. discriminate K.
Qed.
End Check.
Print Assumptions check_cleans.
Print Assumptions check_clean_why.
Print Assumptions check_clean_needed.
(** A status that calls for a dual cleanup. *)
Definition dusty : answers :=
  {| q_lim := fun _ => false; q_opt := fun _ => true; q_pinf := fun _ => false; q_dinf := fun _ => false; q_sec := fun _ => 9; q_sumP := fun _ => 0%Q; q_sumD := fun _ => 0%Q |}.
Example check_cleans_example : calls_for dusty [] 2 /\ checkSolverOptimality dusty true true 10 2 [] = Returned true [OClean 2].
Proof. split; [right; split; [reflexivity|split; [intros [E|E]; [discriminate E|apply E; reflexivity]|right; left; reflexivity]]|vm_compute; reflexivity]. Qed.

(** The bound on re-solves is not [max] itself: a problem that was optimal and turns primal infeasible is solved once more. *)
Definition flat (p : history -> bool) (o : history -> bool) : answers :=
  {| q_lim := fun _ => false; q_opt := o; q_pinf := p; q_dinf := fun _ => false; q_sec := fun _ => 0; q_sumP := fun _ => 0%Q; q_sumD := fun _ => 0%Q |}.
Definition resolved_once (h : history) : bool := (1 <=? SolveSpec.count is_resolve h)%nat.
Theorem check_effort_refuted : exists A h, exclusive A /\
  after (checkSolverOptimality A true false 10 1 h) = [OFactOff; OResolve; OLimit 10; OFactOn; OResolve; OLimit 10] ++ h.
Proof.
  exists (flat resolved_once (fun h => negb (resolved_once h))), []. split; [|vm_compute; reflexivity].
  intros h O. cbn [flat q_opt q_pinf q_dinf] in *. destruct (resolved_once h); [discriminate O|split; reflexivity].
Qed.
(** A factorization that was on may be off afterwards. *)
Theorem check_factorization_refuted : exists A h, exclusive A /\ fact_state false h = true /\
  fact_state false (after (checkSolverOptimality A true false 10 2 h)) = false.
Proof.
  exists (flat resolved_once (fun h => negb (resolved_once h))), [OFactOn]. split; [|split; vm_compute; reflexivity].
  intros h O. cbn [flat q_opt q_pinf q_dinf] in *. destruct (resolved_once h); [discriminate O|split; reflexivity].
Qed.
(** Other solvers are re-solved without the deadline. *)
Theorem check_deadline_refuted : exists A h, exclusive A /\ after (checkSolverOptimality A false false 10 2 h) = OResolve :: h /\
  deadline (OResolve :: h) = None.
Proof.
  exists (flat (fun _ => false) resolved_once), []. split; [intros h O; split; reflexivity|split; vm_compute; reflexivity].
Qed.
(** A problem reported dual infeasible can end as primal infeasible, and the program goes on although it was told to stop. *)
Definition turning : answers :=
  {| q_lim := fun _ => false; q_opt := fun _ => false; q_pinf := fun h => (2 <=? SolveSpec.count is_resolve h)%nat;
     q_dinf := fun h => Nat.eqb (SolveSpec.count is_resolve h) 0; q_sec := fun _ => 0; q_sumP := fun _ => 0%Q; q_sumD := fun _ => 0%Q |}.
Theorem check_dual_infeasible_refuted : exclusive turning /\ q_dinf turning [] = true /\
  exists h', checkSolverOptimality turning true true 10 2 [] = Returned false h' /\ q_pinf turning h' = true.
Proof. split; [intros h O; discriminate O|]. split; [reflexivity|]. eexists. split; vm_compute; reflexivity. Qed.

Example check_example : exclusive (flat (fun _ => false) (fun _ => true)) /\
  checkSolverOptimality (flat (fun _ => false) (fun _ => true)) true true 10 2 [] = Returned true [OResolve; OLimit 10].
Proof. split; [intros h O; split; reflexivity|vm_compute; reflexivity]. Qed.
(** A dual infeasible problem ends the program when asked to. *)
Definition unbounded : answers :=
  {| q_lim := fun _ => false; q_opt := fun _ => false; q_pinf := fun _ => false;
     q_dinf := fun _ => true; q_sec := fun _ => 0; q_sumP := fun _ => 0%Q; q_sumD := fun _ => 0%Q |}.
Example check_exit_example : checkSolverOptimality unbounded true true 10 2 [] = Exited [OResolve; OResolve; OLimit 10].
Proof. vm_compute. reflexivity. Qed.

(** ** Enabling the factorization. *)
Section Enable.
Context (A : answers) (EPS : Q) (flag : Z).
(** For Clp: the factorization is on, the answer is the final status, there is at most one solve, and there is one exactly when it is
    allowed and infeasibilities show up. *)
Theorem enable_clp : forall h, exists v tr, enableFactorization A true EPS flag h = Some (v, tr ++ h) /\ v = q_opt A (tr ++ h) /\
  fact_state false (tr ++ h) = true /\ (forall b, same_bounds b (tr ++ h) h) /\
  SolveSpec.count is_solve tr = (if (0 <? flag) && (Qltb EPS (q_sumP A (OFactOn :: h)) || Qltb EPS (q_sumD A (OFactOn :: h))) then 1%nat else 0%nat).
Proof.
  intros h. unfold enableFactorization. cbv zeta. destruct (0 <? flag); cbn [andb].
  - destruct (Qltb EPS (q_sumP A (OFactOn :: h)) || Qltb EPS (q_sumD A (OFactOn :: h))).
    + exists (q_opt A (OFactOn :: OFactOff :: (if flag =? 1 then OInitial else OResolve) :: OFactOn :: h)), [OFactOn; OFactOff; (if flag =? 1 then OInitial else OResolve); OFactOn].
      split; [reflexivity|]. split; [reflexivity|]. split; [reflexivity|].
      split; [intros b i; destruct (flag =? 1); split; reflexivity|destruct (flag =? 1); reflexivity].
    + exists (q_opt A (OFactOn :: h)), [OFactOn]. split; [reflexivity|]. split; [reflexivity|]. split; [reflexivity|].
      split; [intros b i; split; reflexivity|reflexivity].
  - exists (q_opt A (OFactOn :: h)), [OFactOn]. split; [reflexivity|]. split; [reflexivity|]. split; [reflexivity|].
    split; [intros b i; split; reflexivity|reflexivity].
Qed.
(** With another solver the call has undefined behaviour exactly when re-solving is allowed. *)
Theorem enable_other : forall h, enableFactorization A false EPS flag h = None <-> 0 < flag.
Proof.
  intros h. unfold enableFactorization. cbv zeta. destruct (Z.ltb_spec 0 flag); split; intros E; try reflexivity; try lia; discriminate E.
Qed.
End Enable.

(** ** Many calls with one counter. *)
Record hotcall := { hc_col : nat; hc_ub : bool; hc_orig : option Q; hc_new : option Q }.
Fixpoint hot_calls (A : answers) (MAX : Z) (cs : list hotcall) (v : Z) (h : history) : Z * history :=
  match cs with
  | [] => (v, h)
  | c :: cs => let '(_, v, h) := solveFromHotStart A (hc_col c) (hc_ub c) (hc_orig c) (hc_new c) v MAX h in hot_calls A MAX cs v h
  end.
(** Whatever happens, hot starts fail at most MAX + 1 times, ... *)
Theorem failures_bounded : forall A MAX cs v h v' h', 0 <= v <= MAX + 1 -> 0 < MAX -> hot_calls A MAX cs v h = (v', h') ->
  v <= v' <= MAX + 1 /\ v' - v = Z.of_nat (limited A h') - Z.of_nat (limited A h).
Proof.
  intros A MAX cs. induction cs as [|c cs IH]; intros v h v' h' V M R; cbn [hot_calls] in R.
  - injection R as <- <-. lia.
  - destruct (solveFromHotStart A (hc_col c) (hc_ub c) (hc_orig c) (hc_new c) v MAX h) as [[x w] k] eqn:E.
    pose proof (hot_counter _ _ _ _ _ _ _ _ _ _ _ E) as [C1 C2]. pose proof (hot_counts _ _ _ _ _ _ _ _ _ _ _ E) as C3.
    assert (W : 0 <= w <= MAX + 1).
    { destruct (Z.lt_ge_cases v MAX) as [L|L]; [specialize (C2 L); lia|].
      destruct (hot_disabled _ _ _ _ _ _ _ _ _ _ _ E) as [_ ->]; lia. }
    destruct (IH _ _ _ _ W M R) as [I1 I2]. specialize (C3 ltac:(lia)). lia.
Qed.
(** ... and once the limit is reached no hot start is used any more. *)
Theorem disabled_for_good : forall A MAX cs v h v' h', 0 < MAX <= v -> hot_calls A MAX cs v h = (v', h') ->
  v' = v /\ h' = repeat OResolve (length cs) ++ h.
Proof.
  intros A MAX cs. induction cs as [|c cs IH]; intros v h v' h' V R; cbn [hot_calls] in R.
  - injection R as <- <-. split; reflexivity.
  - destruct (solveFromHotStart A (hc_col c) (hc_ub c) (hc_orig c) (hc_new c) v MAX h) as [[x w] k] eqn:E.
    destruct (hot_disabled _ _ _ _ _ _ _ _ _ _ _ E V) as [-> ->]. destruct (IH _ _ _ _ V R) as [-> ->]. split; [reflexivity|].
    cbn [length repeat]. change (OResolve :: h) with ([OResolve] ++ h). rewrite app_assoc. f_equal. symmetry.
    clear. induction (length cs) as [|n IH]; [reflexivity|]. cbn [repeat app] in *. rewrite IH at 1. reflexivity.
Qed.
(** The bound is not MAX: one call can fail twice. *)
Definition stuck : answers :=
  {| q_lim := fun _ => true; q_opt := fun _ => true; q_pinf := fun _ => false;
     q_dinf := fun _ => false; q_sec := fun _ => 0; q_sumP := fun _ => 0%Q; q_sumD := fun _ => 0%Q |}.
Theorem failures_bounded_refuted : exists h', hot_calls stuck 1 [{| hc_col := 0; hc_ub := true; hc_orig := Some 1%Q; hc_new := Some 0%Q |}] 0 [OMark] = (2, h').
Proof. eexists. vm_compute. reflexivity. Qed.

(** The callers use the overload that begins a new counter each time: hot starts are never given up, however often they fail. *)
Fixpoint fresh_calls (A : answers) (MAX : Z) (cs : list hotcall) (h : history) : history :=
  match cs with
  | [] => h
  | c :: cs => fresh_calls A MAX cs (snd (solveFromHotStart0 A (hc_col c) (hc_ub c) (hc_orig c) (hc_new c) MAX h))
  end.
Theorem fresh_counter_refuted : forall n, exists cs h, length cs = n /\ fresh_calls stuck 2 cs [] = h /\ limited stuck h = (2 * n)%nat.
Proof.
  intros n. exists (repeat {| hc_col := 0; hc_ub := true; hc_orig := Some 1%Q; hc_new := Some 0%Q |} n).
  eexists. split; [apply repeat_length|]. split; [reflexivity|].
  cut (forall h, limited stuck (fresh_calls stuck 2 (repeat {| hc_col := 0; hc_ub := true; hc_orig := Some 1%Q; hc_new := Some 0%Q |} n) h) = (2 * n + limited stuck h)%nat).
  { intros G. rewrite G. apply Nat.add_0_r. }
  induction n as [|n IH]; intros h; [reflexivity|]. cbn [repeat fresh_calls]. rewrite IH.
  match goal with |- context [solveFromHotStart0 ?A ?c ?u ?o ?w ?m ?k] => destruct (solveFromHotStart0 A c u o w m k) as [x k'] eqn:E end.
  vm_compute in E. injection E as _ <-. cbn [snd limited is_hot andb stuck q_lim]. lia.
Qed.

(** With limit 0 the hot start is marked at the changed bounds after the call: the claim that it stays at the original ones
    fails there. *)
Theorem hot_mark_refuted : exists A h h', marked_at unit_box h (OUpper 0 (Some 1%Q) :: h) /\
  solveFromHotStart A 0 true (Some 1%Q) (Some 0%Q) 0 0 h = (true, 0, h') /\ ~ marked_at unit_box h' (OUpper 0 (Some 1%Q) :: h).
Proof.
  exists stuck, [OUpper 0 (Some 0%Q); OMark]. eexists. split.
  - exists []. split; [reflexivity|]. intros i. cbn [lower_of upper_of unit_box fst snd]. destruct (Nat.eqb i 0); split; reflexivity.
  - split; [vm_compute; reflexivity|]. intros (m & E & S). injection E as <-. destruct (S 0%nat) as [_ S2]. vm_compute in S2. discriminate S2.
Qed.

(** A variable probed with a hot start that fails once. *)
Definition failing_once : answers :=
  {| q_lim := fun h => Nat.eqb (SolveSpec.count is_hot h) 1; q_opt := fun h => negb (Nat.eqb (SolveSpec.count (fun o => match o with OLower _ _ => true | _ => false end) h) 1);
     q_pinf := fun h => Nat.eqb (SolveSpec.count (fun o => match o with OLower _ _ => true | _ => false end) h) 1;
     q_dinf := fun _ => false; q_sec := fun _ => 0; q_sumP := fun _ => 0%Q; q_sumD := fun _ => 0%Q |}.
Example probe_example : exists h',
  probe_run failing_once 2 (fun k => lower_of (fst unit_box) k) (fun k => upper_of (snd unit_box) k) [(0%nat, 0%Q, 1%Q)] [] =
    Some ([(SideOptimal, SideInfeasible)], h') /\ hot_state false [] = Some false /\ SolveSpec.count is_solve h' = 7%nat.
Proof. eexists. split; [vm_compute; reflexivity|split; vm_compute; reflexivity]. Qed.

Print Assumptions hot_answer.
Print Assumptions hot_always.
Print Assumptions hot_disabled.
Print Assumptions hot_extends.
Print Assumptions hot_counts.
Print Assumptions hot_counter.
Print Assumptions hot_solves.
Print Assumptions hot_protocol.
Print Assumptions hot_bounds.
Print Assumptions hot_solved.
Print Assumptions hot_mark.
Print Assumptions hot_mark_zero.
Print Assumptions hot_mark_refuted.
Print Assumptions probe_split_restores.
Print Assumptions probe_run_restores.
Print Assumptions probe_clean_restores.
Print Assumptions strong_restores.
Print Assumptions strong_judges.
Print Assumptions strong_copies_refuted.
Print Assumptions check_true.
Print Assumptions check_answer.
Print Assumptions check_exit.
Print Assumptions check_no_exit.
Print Assumptions check_bounds.
Print Assumptions check_effort.
Print Assumptions check_deadline.
Print Assumptions check_factorization.
Print Assumptions check_effort_refuted.
Print Assumptions check_factorization_refuted.
Print Assumptions check_deadline_refuted.
Print Assumptions check_dual_infeasible_refuted.
Print Assumptions enable_clp.
Print Assumptions enable_other.
Print Assumptions failures_bounded.
Print Assumptions disabled_for_good.
Print Assumptions failures_bounded_refuted.
Print Assumptions fresh_counter_refuted.
