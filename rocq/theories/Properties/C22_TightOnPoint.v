(** C22: searching for cuts tight on a point leaves the PRLP as it was. *)
From Verif Require Import Prelude Model.LP Model.Tolerance Model.SolverHelper Model.TightOnPoint Spec.LPSpec Proofs.ToleranceP Proofs.SolverHelperP Properties.C46_ObjectiveUpdate.

(** Subsequence. *)
Inductive subseq {A} : list A -> list A -> Prop :=
| SubNil l : subseq [] l
| SubTake x a b : subseq a b -> subseq (x :: a) (x :: b)
| SubSkip x a b : subseq a b -> subseq a (x :: b).
(** Objective coefficient of column [j] for a candidate: its row; or +/- the unit vector of a column, for its
    lower or upper bound. *)
Definition candidate_coef (d : tpdata) (idx j : nat) : Q :=
  if Nat.ltb idx (tp_nrows d) then pval (tp_row d idx) j
  else if Nat.ltb idx (tp_nrows d + tp_ncols d) then (if Nat.eqb (idx - tp_nrows d) j then 1 else 0)
  else (if Nat.eqb (idx - tp_nrows d - tp_ncols d) j then -(1) else 0).
Definition no_objective (d : tpdata) (s : pst) : Prop := forall j, (j < tp_ncols d)%nat -> ps_obj s j == 0.
Definition objective_is (d : tpdata) (c : nat -> Q) (s : pst) : Prop := forall j, (j < tp_ncols d)%nat -> ps_obj s j == c j.

Lemma vec_of_coef d idx j : pval (vec_of d idx) j == candidate_coef d idx j.
Proof.
  unfold vec_of, candidate_coef. destruct (Nat.ltb idx (tp_nrows d)); [reflexivity|].
  destruct (Nat.ltb idx (tp_nrows d + tp_ncols d)); rewrite pval_cons, pval_nil; cbn [fst snd]; destruct (Nat.eqb _ j); ring.
Qed.
Lemma one_big : EPS7 <= Qabs 1. Proof. vm_compute. discriminate. Qed.
Lemma add_vec_one d v s j : ps_obj (add_vec d v 1 false s) j == ps_obj s j + pval v j.
Proof.
  unfold add_vec. cbn [with_obj ps_obj]. destruct (add_to_objective (tp_ncols d) v false 1 (tp_norm d v) false (ps_obj s) one_big) as (dd & [[X _]|[_ D]] & E);
    [discriminate|]. rewrite E, D. unfold start_coef. cbn [andb]. field.
Qed.
Lemma reset_all_zero d s : no_objective d (reset_all d s).
Proof.
  intros j Hj. unfold reset_all. cbn [with_obj ps_obj]. destruct (proj2 (set_constant (tp_ncols d) 0 (ps_obj s)) None (or_introl eq_refl) j) as [K _].
  rewrite (K Hj). reflexivity.
Qed.
Lemma pval_nocol v i : ~ In i (map fst v) -> pval v i == 0.
Proof.
  induction v as [|e v IH]; intro H; [rewrite pval_nil; reflexivity|]. cbn [map In] in H. rewrite pval_cons, IH by tauto.
  destruct (Nat.eqb_spec (fst e) i); [tauto|ring].
Qed.
Lemma reset_at_zero d v s : objective_is d (pval v) s -> no_objective d (reset_at d v s).
Proof.
  intros H j Hj. unfold reset_at. cbn [with_obj ps_obj]. destruct (map fst v) as [|i r] eqn:E.
  - destruct (proj2 (set_constant (tp_ncols d) 0 (ps_obj s)) (Some []) (or_intror eq_refl) j) as [K _]. rewrite (K Hj). reflexivity.
  - destruct (proj1 (set_constant (tp_ncols d) 0 (ps_obj s)) (i :: r) ltac:(discriminate) j) as [K1 K2].
    destruct (in_dec Nat.eq_dec j (i :: r)) as [I|N]; [rewrite (K1 I); reflexivity|].
    rewrite (K2 N), (H j Hj). apply pval_nocol. rewrite E. exact N.
Qed.
Lemma add_on_zero d v s : no_objective d s -> objective_is d (pval v) (add_vec d v 1 false s).
Proof. intros H j Hj. rewrite add_vec_one, (H j Hj). ring. Qed.
Lemma subseq_skip_app {A} (p a b : list A) : subseq a b -> subseq a (p ++ b).
Proof. induction p as [|x p IH]; intro H; [exact H|]. cbn [app]. apply SubSkip. apply IH, H. Qed.

Lemma advance_spec d b ch : forall rest vec s, no_objective d s ->
  let '(vec', rest', s') := advance d b ch rest vec s in
  ps_up s' = ps_up s /\
  ((exists cur p, rest = p ++ cur :: rest' /\ vec' = Some (vec_of d cur) /\ objective_is d (pval (vec_of d cur)) s') \/ rest' = []).
Proof.
  induction rest as [|idx r IH]; intros vec s Z; cbn [advance].
  - split; [reflexivity|]. right. reflexivity.
  - destruct (b && ch idx).
    + specialize (IH None s Z). destruct (advance d b ch r None s) as [[vec' rest'] s']. destruct IH as (U & K).
      split; [exact U|]. destruct K as [(cur & p & -> & K)|K]; [left|right; exact K].
      exists cur, (idx :: p). split; [reflexivity|exact K].
    + split; [reflexivity|]. left. exists idx, []. split; [reflexivity|]. split; [reflexivity|]. apply add_on_zero, Z.
Qed.
Lemma removelast_app_cons {A} (p : list A) x l : removelast (p ++ x :: l) = p ++ removelast (x :: l).
Proof. apply removelast_app. discriminate. Qed.

Lemma loop_pos_spec d ask b : forall fuel k last vec rest s tr cur,
  (vec = Some (vec_of d cur) /\ objective_is d (pval (vec_of d cur)) s) \/ rest = [] ->
  exists r s' new sub, loop_pos d ask b fuel k last vec rest s tr = Some (r, s', tr ++ new) /\ ps_up s' = ps_up s /\
    Forall2 (fun s1 idx => ps_up s1 = ps_up s /\ objective_is d (candidate_coef d idx) s1) new sub /\
    subseq sub (removelast (cur :: rest)) /\ (length new <= fuel)%nat.
Proof.
  induction fuel as [|f IH]; intros k last vec rest s tr cur H; cbn [loop_pos].
  - exists true, s, [], []. rewrite app_nil_r. repeat split; try constructor.
  - destruct (_ || _).
    { eexists _, s, [], []. rewrite app_nil_r. split; [reflexivity|]. repeat split; try constructor. cbn [length]. lia. }
    destruct rest as [|x r'] eqn:ER.
    { exists true, s, [], []. rewrite app_nil_r. repeat split; try constructor. cbn [length]. lia. }
    rewrite <- ER in *. assert (NE : rest <> []) by (rewrite ER; discriminate). destruct H as [[-> O]|H]; [|congruence].
    assert (OC : objective_is d (candidate_coef d cur) s) by (intros j Hj; rewrite (O j Hj); apply vec_of_coef).
    assert (RL : removelast (cur :: rest) = cur :: removelast rest) by (rewrite ER; reflexivity).
    destruct f as [|f'].
    { exists true, s, [s], [cur]. split; [reflexivity|]. split; [reflexivity|]. split; [repeat constructor; assumption|]. split; [|cbn [length]; lia].
      rewrite RL. apply SubTake. constructor. }
    pose proof (advance_spec d b (ta_changed (ask k)) rest (Some (vec_of d cur)) (reset_at d (vec_of d cur) s) (reset_at_zero d _ s O)) as A.
    destruct (advance d b (ta_changed (ask k)) rest (Some (vec_of d cur)) (reset_at d (vec_of d cur) s)) as [[vec' rest'] s1].
    destruct A as (U & A). change (ps_up (reset_at d (vec_of d cur) s)) with (ps_up s) in U.
    destruct A as [(cur' & p & EP & -> & O')| ->].
    + destruct (IH (S k) (ask k) (Some (vec_of d cur')) rest' s1 (tr ++ [s]) cur') as (r & s' & new & sub & E & U' & F & SB & LN).
      { left. split; [reflexivity|exact O']. }
      exists r, s', (s :: new), (cur :: sub). rewrite <- app_assoc in E. split; [exact E|]. split; [congruence|]. split.
      { constructor; [split; [reflexivity|exact OC]|]. rewrite U in F. exact F. }
      split; [|cbn [length]; lia]. rewrite RL. apply SubTake. rewrite EP, removelast_app_cons. apply subseq_skip_app, SB.
    + destruct (IH (S k) (ask k) vec' [] s1 (tr ++ [s]) cur) as (r & s' & new & sub & E & U' & F & SB & LN); [right; reflexivity|].
      cbn [removelast] in SB. inversion SB; subst. inversion F; subst.
      exists r, s', [s], [cur]. split; [rewrite app_nil_r in E; exact E|]. split; [congruence|]. split; [repeat constructor; assumption|].
      split; [|cbn [length]; lia]. rewrite RL. apply SubTake. constructor.
Qed.
Lemma remove_tight_up d t : forall live s, ps_up (snd (remove_tight d t live s)) = ps_up s.
Proof.
  induction live as [|i r IH]; intro s; cbn [remove_tight]; [reflexivity|]. destruct (t i).
  - specialize (IH (add_vec d (vec_of d i) (-(1)) true s)). destruct (remove_tight d t r _) as [[l n] s']. exact IH.
  - specialize (IH s). destruct (remove_tight d t r s) as [[l n] s']. exact IH.
Qed.
Lemma loop_zero_spec d ask : forall fuel k last live s tr,
  exists r s' new, loop_zero d ask fuel k last live s tr = (r, s', tr ++ new) /\ ps_up s' = ps_up s /\
    Forall (fun s1 => ps_up s1 = ps_up s) new /\ (length new <= fuel)%nat.
Proof.
  induction fuel as [|f IH]; intros k last live s tr; cbn [loop_zero].
  - exists true, s, []. rewrite app_nil_r. repeat split; constructor.
  - destruct (_ || _). { eexists _, s, []. rewrite app_nil_r. split; [reflexivity|]. repeat split; [constructor|cbn [length]; lia]. }
    destruct f as [|f']. { exists true, s, [s]. repeat split; [repeat constructor|cbn [length]; lia]. }
    pose proof (remove_tight_up d (ta_tight_now (ask k)) live s) as U. destruct (remove_tight d (ta_tight_now (ask k)) live s) as [[l n] s1].
    cbn [snd] in U. destruct (_ || _).
    { exists true, s1, [s]. split; [reflexivity|]. split; [exact U|]. split; [repeat constructor|cbn [length]; lia]. }
    destruct (IH (S k) (ask k) l s1 (tr ++ [s])) as (r & s' & new & E & U' & F & LN).
    exists r, s', (s :: new). rewrite <- app_assoc in E. split; [exact E|]. split; [congruence|]. split; [|cbn [length]; lia].
    constructor; [reflexivity|]. rewrite U in F. exact F.
Qed.

Lemma add_all_up d : forall cands t, ps_up (fold_left (fun s0 idx => add_vec d (vec_of d idx) 1 false s0) cands t) = ps_up t.
Proof. induction cands as [|c r IH]; intro t; cbn [fold_left]; [reflexivity|]. rewrite IH. reflexivity. Qed.

(** On every path: no NULL vector is used, the row bounds are those before the call, and the objective is
    zero as it was. *)
Theorem tight_on_point_restores : forall d ask point mode cands MAX s, no_objective d s ->
  exists r s' trace, findCutsTightOnPoint d ask point mode cands MAX s = Some (r, s', trace) /\
    (forall i, ps_up s' i = ps_up s i) /\ no_objective d s' /\
    (1 <= length trace <= Nat.max 1 MAX)%nat /\
    (** the first solve has the point as objective and the original bounds *)
    (exists s0, hd_error trace = Some s0 /\ objective_is d (pval (tp_row d point)) s0 /\ forall i, ps_up s0 i = ps_up s i) /\
    (** every later solve has the point's row as an equation and all other bounds unchanged *)
    Forall (fun s1 => ps_up s1 point = tp_lo d point /\ forall i, i <> point -> ps_up s1 i = ps_up s i) (tl trace) /\
    (** in the one-at-a-time modes its objective is one candidate, in the given order, each at most once *)
    (mode <> O -> exists sub, subseq sub (removelast cands) /\ Forall2 (fun s1 idx => objective_is d (candidate_coef d idx) s1) (tl trace) sub).
Proof.
  intros d ask point mode cands MAX s Z. unfold findCutsTightOnPoint. cbv zeta.
  set (s1 := add_vec d (tp_row d point) 1 false s). set (s2 := reset_at d (tp_row d point) s1).
  assert (O1 : objective_is d (pval (tp_row d point)) s1) by (apply add_on_zero, Z).
  assert (Z2 : no_objective d s2) by (apply reset_at_zero, O1).
  assert (FST : exists s0, hd_error [s1] = Some s0 /\ objective_is d (pval (tp_row d point)) s0 /\ forall i, ps_up s0 i = ps_up s i).
  { exists s1. split; [reflexivity|]. split; [exact O1|reflexivity]. }
  assert (ONE : (1 <= length [s1] <= Nat.max 1 MAX)%nat) by (cbn [length]; lia).
  assert (EARLY : forall r : bool, exists r0 s' trace, Some (r, s2, [s1]) = Some (r0, s', trace) /\
    (forall i, ps_up s' i = ps_up s i) /\ no_objective d s' /\ (1 <= length trace <= Nat.max 1 MAX)%nat /\
    (exists s0, hd_error trace = Some s0 /\ objective_is d (pval (tp_row d point)) s0 /\ forall i, ps_up s0 i = ps_up s i) /\
    Forall (fun s1 => ps_up s1 point = tp_lo d point /\ forall i, i <> point -> ps_up s1 i = ps_up s i) (tl trace) /\
    (mode <> O -> exists sub, subseq sub (removelast cands) /\ Forall2 (fun s1 idx => objective_is d (candidate_coef d idx) s1) (tl trace) sub)).
  { intro r. exists r, s2, [s1]. split; [reflexivity|]. split; [reflexivity|]. split; [exact Z2|]. split; [exact ONE|]. split; [exact FST|].
    split; [constructor|]. intros _. exists []. split; constructor. }
  destruct (_ || ta_limit _); [apply EARLY|]. destruct (negb _ || Nat.leb MAX 1) eqn:LM; [apply EARLY|]. apply orb_false_iff in LM. destruct LM as [_ LM].
  apply Nat.leb_gt in LM. set (s3 := set_up s2 point (tp_lo d point)).
  assert (Z3 : no_objective d s3) by exact Z2.
  assert (U3 : ps_up s3 = upd (ps_up s) point (tp_lo d point)) by reflexivity.
  assert (DONE : forall t, ps_up t = ps_up s3 -> let t' := set_up (reset_all d t) point (ps_up s2 point) in
            (forall i, ps_up t' i = ps_up s i) /\ no_objective d t').
  { intros t E t'. split; [|exact (reset_all_zero d t)]. intro i. unfold t', set_up, reset_all. cbn [ps_up with_obj]. rewrite E, U3.
    destruct (Nat.eq_dec i point) as [->|N]; [apply upd_same|]. rewrite !upd_other by exact N. reflexivity. }
  assert (EQN : forall t, ps_up t = ps_up s3 -> ps_up t point = tp_lo d point /\ forall i, i <> point -> ps_up t i = ps_up s i).
  { intros t E. rewrite E, U3. split; [apply upd_same|]. intros i N. apply upd_other, N. }
  destruct mode as [|m].
  - set (s4 := fold_left (fun s0 idx => add_vec d (vec_of d idx) 1 false s0) cands s3).
    assert (U4 : ps_up s4 = ps_up s3).
    { apply add_all_up. }
    destruct cands as [|c r].
    + eexists true, _, [s1]. split; [reflexivity|]. destruct (DONE s4 U4) as [D1 D2]. split; [exact D1|]. split; [exact D2|].
      split; [exact ONE|]. split; [exact FST|]. split; [constructor|congruence].
    + destruct (loop_zero_spec d ask (MAX - 1) 1 (ask 0%nat) (c :: r) s4 [s1]) as (rr & s5 & new & E & U5 & F & LN). rewrite E.
      eexists rr, _, _. split; [reflexivity|]. destruct (DONE s5) as [D1 D2]; [congruence|]. split; [exact D1|]. split; [exact D2|].
      split; [cbn [app length]; lia|]. split; [exists s1; split; [reflexivity|]; split; [exact O1|reflexivity]|]. split; [|congruence].
      cbn [app tl]. apply Forall_impl with (2 := F). intros t Ht. apply EQN. congruence.
  - destruct cands as [|c rest].
    { eexists true, _, [s1]. split; [reflexivity|]. destruct (DONE s3 eq_refl) as [D1 D2]. split; [exact D1|]. split; [exact D2|].
      split; [exact ONE|]. split; [exact FST|]. split; [constructor|]. intros _. exists []. split; constructor. }
    set (s4 := add_vec d (vec_of d c) 1 false s3). assert (U4 : ps_up s4 = ps_up s3) by reflexivity.
    destruct rest as [|x r].
    { eexists true, _, [s1]. split; [reflexivity|]. destruct (DONE s4 U4) as [D1 D2]. split; [exact D1|]. split; [exact D2|].
      split; [exact ONE|]. split; [exact FST|]. split; [constructor|]. intros _. exists []. split; constructor. }
    destruct (loop_pos_spec d ask (Nat.eqb m 0) (MAX - 1) 1 (ask 0%nat) (Some (vec_of d c)) (x :: r) s4 [s1] c) as (rr & s5 & new & sub & E & U5 & F & SB & LN).
    { left. split; [reflexivity|]. apply add_on_zero, Z3. }
    rewrite E. eexists rr, _, _. split; [reflexivity|]. destruct (DONE s5) as [D1 D2]; [congruence|]. split; [exact D1|]. split; [exact D2|].
    split; [cbn [app length]; lia|]. split; [exists s1; split; [reflexivity|]; split; [exact O1|reflexivity]|].
    cbn [app tl]. split.
    + clear - F EQN U4. induction F as [|t idx n su [H _] F IH]; constructor; [apply EQN; congruence|exact IH].
    + intros _. exists sub. split; [exact SB|]. clear - F. induction F as [|t idx n su [_ H] F IH]; constructor; assumption.
Qed.
Print Assumptions tight_on_point_restores.

(** So every solution found after the first solve meets the point's row with equality: the cut it gives is
    tight on the point. *)
Theorem later_cuts_tight : forall d ask point mode cands MAX s r s' trace x b, no_objective d s ->
  findCutsTightOnPoint d ask point mode cands MAX s = Some (r, s', trace) -> tp_lo d point = Some b ->
  Forall (fun s1 => above (tp_lo d point) (pdot (tp_row d point) x) -> below (ps_up s1 point) (pdot (tp_row d point) x) ->
                    pdot (tp_row d point) x == b) (tl trace).
Proof.
  intros d ask point mode cands MAX s r s' trace x b Z E L.
  destruct (tight_on_point_restores d ask point mode cands MAX s Z) as (r0 & s0 & t0 & E0 & _ & _ & _ & _ & F & _).
  rewrite E in E0. injection E0 as <- <- <-. apply Forall_impl with (2 := F). intros s1 [-> _]. rewrite L. cbn [above below]. intros. lra.
Qed.
Print Assumptions later_cuts_tight.

(** Example: two columns, point row (1,1) >= 1 and two ray rows; three candidates, one at a time: the
    point, then the first two candidates are tried. *)
Definition exd : tpdata :=
  {| tp_ncols := 2; tp_nrows := 3;
     tp_row := fun i => match i with O => [(0%nat, 1); (1%nat, 1)] | 1%nat => [(0%nat, 1)] | _ => [(1%nat, 1)] end;
     tp_lo := fun i => match i with O => Some 1 | _ => Some 0 end; tp_norm := fun _ => 1 |}.
Definition exs : pst := {| ps_obj := fun _ => 0; ps_up := fun _ => None |}.
Definition exa : nat -> tans := fun _ => {| ta_code := 1; ta_point_tight := true; ta_changed := fun _ => false; ta_tight_now := fun i => Nat.eqb i 1; ta_limit := false |}.
Definition seen (o : option (bool * pst * list pst)) : list (list Q * option Q) :=
  match o with Some (_, _, t) => map (fun s => (map (fun j => Qred (ps_obj s j)) [0; 1]%nat, ps_up s 0%nat)) t | None => [] end.
Example tight_meets : no_objective exd exs /\
  seen (findCutsTightOnPoint exd exa 0 1 [1; 2; 3]%nat 10 exs) =
    [([1; 1], None); ([1; 0], Some 1); ([0; 1], Some 1)].
Proof. split; [intros j _; reflexivity|vm_compute; reflexivity]. Qed.

(** Refuted: "all candidates are tried" — in the one-at-a-time modes the last one never is, so with a
    single candidate none is. *)
Theorem last_candidate_refuted : exists d s, no_objective d s /\
  forall ask point mode idx MAX, mode <> O -> exists r s' s1, findCutsTightOnPoint d ask point mode [idx] MAX s = Some (r, s', [s1]).
Proof.
  exists exd, exs. split; [intros j _; reflexivity|]. intros ask point mode idx MAX M. unfold findCutsTightOnPoint. cbv zeta.
  destruct (_ || ta_limit _); [eexists _, _, _; reflexivity|]. destruct (_ || Nat.leb MAX 1); [eexists _, _, _; reflexivity|].
  destruct mode as [|m]; [congruence|]. eexists _, _, _. reflexivity.
Qed.
Print Assumptions last_candidate_refuted.

(** Refuted for mode 0: a vector that has become tight is subtracted scaled, not as it was added: after
    removing candidate 1 = (1,0) from (1,0) + (0,1) the objective is not (0,1). *)
Theorem subtract_refuted : exists d ask s, no_objective d s /\
  nth 2 (seen (findCutsTightOnPoint d ask 0 0 [1; 2]%nat 10 s)) ([], None) = ([-(1); 1], Some 1).
Proof. exists exd, exa, exs. split; [intros j _; reflexivity|]. vm_compute. reflexivity. Qed.
Print Assumptions subtract_refuted.
