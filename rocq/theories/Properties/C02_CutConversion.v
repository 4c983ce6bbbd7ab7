(** C02: converting a cut from nonbasic coordinates to structural variables preserves it. *)
From Verif Require Import Prelude Model.Tolerance Model.LP Model.BasisStatus Model.NBSpace
  Spec.LPSpec Spec.NBSpec Proofs.NBConvertP.

(** [vars] and [cs]: the nonbasic variables with a PRLP column and their coefficients
    ([cc_terms] pairs each PRLP column with its variable).  Hypotheses: the cobasis lists
    columns before slacks in increasing order (as getProblemData builds it), every column in
    it sits at a bound, the rows mention only existing columns.  Then at EVERY point the slack
    of the structural cut equals the slack of  sum_k c_k * dist_k >= beta. *)
Theorem cut_conversion_exact :
  forall nz coeff beta P b NB,
  let terms := cc_terms (ncols P) nz coeff NB in
  increasing_from 0 (map fst terms) ->
  (forall var, In var (map fst terms) -> (var < ncols P + nrows P)%nat) ->
  (forall var, In var (map fst terms) -> col_at_bound P b var) ->
  wf_lp P ->
  forall x,
  let c := setCutFromNBCoefficients nz coeff beta P b NB true 0 in
  pdot (crow c) x - crhs c == Qsumf (fun vc => snd vc * dist P b (fst vc) x) terms - beta.
Proof.
  intros nz coeff beta P b NB terms Hinc Hr Hcol Hwf x c.
  pose proof (setCut_value nz coeff beta P b NB 0 x Hinc Hr Hcol Hwf (Qle_refl 0)) as H.
  cbv zeta in H. fold c in H. fold terms in H. rewrite Qmult_0_l in H. qabs; lra.
Qed.
Print Assumptions cut_conversion_exact.

(** With the tolerance actually used (coefficients below EPS are dropped) the two slacks differ
    by at most EPS * |x|_1. *)
Theorem cut_conversion_tolerance :
  forall nz coeff beta P b NB EPS,
  let terms := cc_terms (ncols P) nz coeff NB in
  increasing_from 0 (map fst terms) ->
  (forall var, In var (map fst terms) -> (var < ncols P + nrows P)%nat) ->
  (forall var, In var (map fst terms) -> col_at_bound P b var) ->
  wf_lp P -> 0 <= EPS ->
  forall x,
  let c := setCutFromNBCoefficients nz coeff beta P b NB true EPS in
  Qabs ((pdot (crow c) x - crhs c) - (Qsumf (fun vc => snd vc * dist P b (fst vc) x) terms - beta))
  <= EPS * Qsumf (fun j => Qabs (x j)) (seq 0 (ncols P)).
Proof. intros. apply setCut_value; assumption. Qed.
Print Assumptions cut_conversion_tolerance.

(** The same in terms of the PRLP: [kept] are the positions in the cobasis that still have a PRLP column (in
    increasing order), [coeff t] is the coefficient of the t-th PRLP column.  The cobasis itself lists existing
    variables in increasing order, columns at a bound. *)
Theorem cut_conversion_columns :
  forall kept coeff beta P b NB EPS,
  kept <> [] -> increasing_from 0 kept -> (forall k, In k kept -> (k < length NB)%nat) ->
  increasing_from 0 NB -> (forall var, In var NB -> (var < ncols P + nrows P)%nat) ->
  (forall var, In var NB -> col_at_bound P b var) -> wf_lp P -> 0 <= EPS ->
  forall x,
  let c := setCutFromNBCoefficients kept coeff beta P b NB true EPS in
  Qabs ((pdot (crow c) x - crhs c) -
        (Qsumf (fun t => coeff t * dist P b (nth (nth t kept O) NB O) x) (seq 0 (length kept)) - beta))
  <= EPS * Qsumf (fun j => Qabs (x j)) (seq 0 (ncols P)).
Proof.
  intros kept coeff beta P b NB EPS K KI KL NI NR NC W E x. cbv zeta.
  set (terms := cc_terms (ncols P) kept coeff NB).
  assert (T : terms = map (fun t => (nth (nth t kept O) NB O, coeff t)) (seq 0 (length kept))).
  { unfold terms, cc_terms. destruct kept; [contradiction|reflexivity]. }
  assert (F : map fst terms = map (fun k => nth k NB O) kept).
  { rewrite T, map_map. cbn [fst]. clear. rewrite <- (map_map (fun t => nth t kept O) (fun k => nth k NB O)). f_equal.
    induction kept as [|a k IH]; [reflexivity|]. cbn [length seq map]. f_equal. rewrite <- seq_shift, map_map. exact IH. }
  assert (IN : forall var, In var (map fst terms) -> In var NB).
  { rewrite F. intros var V. apply in_map_iff in V. destruct V as (k & <- & V). apply nth_In, KL, V. }
  assert (INC : increasing_from 0 (map fst terms)).
  { rewrite F. clear - KI KL NI.
    assert (MONO : forall l lo i j, increasing_from lo l -> (i < j < length l)%nat -> (nth i l O < nth j l O)%nat).
    { induction l as [|a l IH]; intros lo i j H Q; [cbn in Q; lia|]. destruct H as [H1 H2].
      destruct j as [|j]; [lia|]. destruct i as [|i]; cbn [nth length] in *; [|apply (IH (S a) i j H2); lia].
      assert (G : forall l lo j, increasing_from lo l -> (j < length l)%nat -> (lo <= nth j l O)%nat).
      { clear. induction l as [|a l IH]; intros lo j H Q; [cbn in Q; lia|]. destruct H as [H1 H2].
        destruct j as [|j]; cbn [nth length] in *; [exact H1|]. specialize (IH (S a) j H2). lia. }
      specialize (G l (S a) j H2). lia. }
    assert (STEP : forall k lo lo', increasing_from lo k -> (forall i, In i k -> (i < length NB)%nat) ->
              (forall i, In i k -> (lo' <= nth i NB O)%nat) -> increasing_from lo' (map (fun i => nth i NB O) k)).
    { induction k as [|a k IH]; intros lo lo' H L B; [exact I|]. cbn [map increasing_from]. destruct H as [H1 H2].
      split; [apply B; left; reflexivity|]. apply (IH (S a)); [exact H2|intros; apply L; right; assumption|].
      intros i Hi. assert (a < i)%nat.
      { clear - H2 Hi. assert (X : forall m, increasing_from m k -> (m <= i)%nat).
        { clear H2. induction k as [|c k IH]; [destruct Hi|]. intros m [A B]. destruct Hi as [<-|Hi]; [exact A|]. specialize (IH Hi (S c) B). lia. }
        exact (X (S a) H2). }
      pose proof (MONO NB 0%nat a i NI). specialize (L i (or_intror Hi)). lia. }
    apply (STEP kept 0%nat); [exact KI|exact KL|intros; lia]. }
  pose proof (cut_conversion_tolerance kept coeff beta P b NB EPS INC (fun v V => NR v (IN v V)) (fun v V => NC v (IN v V)) W E x) as H.
  cbv zeta in H. fold terms in H.
  assert (S : Qsumf (fun vc => snd vc * dist P b (fst vc) x) terms ==
              Qsumf (fun t => coeff t * dist P b (nth (nth t kept O) NB O) x) (seq 0 (length kept))).
  { rewrite T. clear. unfold Qsumf. rewrite map_map. reflexivity. }
  rewrite S in H. exact H.
Qed.
Print Assumptions cut_conversion_columns.

(** A small concrete problem used below: min, 2 columns in [0,3]x[0,5], rows x0+x1>=1 (G) and
    x0 - x1 <= 2 (L). *)
Definition exP : lp :=
  {| ncols := 2; nrows := 2;
     clo := fun _ => Some 0; cup := fun j => if Nat.eqb j 0 then Some 3 else Some 5;
     rows := fun i => if Nat.eqb i 0 then {| rcoef := [(0%nat,1);(1%nat,1)]; rlo := Some 1; rup := None |}
                      else {| rcoef := [(0%nat,1);(1%nat,-(1))]; rlo := None; rup := Some 2 |};
     obj := fun _ => 1 |}.
Definition exB : basisinfo :=
  {| colStatus := fun j => if Nat.eqb j 0 then atUpperBound else basic;
     rowStatus := fun i => if Nat.eqb i 0 then atLowerBound else basic;
     reducedCost := fun _ => 0; rowPrice := fun _ => 0 |}.

(** The cobasis {column 0 at upper, slack of row 0} meets the hypotheses and the converted cut is
    the expected one: 2*(3-x0) + 1*(x0+x1-1) >= 1  i.e.  -x0 + x1 >= -4. *)
Example cut_conversion_example :
  let terms := cc_terms (ncols exP) [] (fun t => if Nat.eqb t 0 then 2 else 1) [0;2]%nat in
  increasing_from 0 (map fst terms) /\
  (forall var, In var (map fst terms) -> (var < ncols exP + nrows exP)%nat) /\
  (forall var, In var (map fst terms) -> col_at_bound exP exB var) /\ wf_lp exP /\
  let c := setCutFromNBCoefficients [] (fun t => if Nat.eqb t 0 then 2 else 1) 1 exP exB [0;2]%nat true 0 in
  crhs c == -(4) /\ pval (crow c) 0 == -(1) /\ pval (crow c) 1 == 1.
Proof.
  cbn zeta. split; [cbn; lia|]. split; [intros v [<-|[<-|[]]]; cbn; lia|].
  split. { intros v [<-|[<-|[]]] H; [left; reflexivity|cbn in H; lia]. }
  split. { intros [|[|i]] Hi e He; cbn in *; intuition (subst; cbn; lia). }
  repeat split; vm_compute; reflexivity.
Qed.

(** With the first column removed from the PRLP: 1*(x0+x1-1) >= 1, i.e. x0 + x1 >= 2. *)
Example cut_conversion_columns_example :
  increasing_from 0 [1]%nat /\ increasing_from 0 [0;2]%nat /\ (forall var, In var [0;2]%nat -> col_at_bound exP exB var) /\
  let c := setCutFromNBCoefficients [1]%nat (fun _ => 1) 1 exP exB [0;2]%nat true 0 in
  crhs c == 2 /\ pval (crow c) 0 == 1 /\ pval (crow c) 1 == 1.
Proof.
  split; [cbn; lia|]. split; [cbn; lia|]. split. { intros v [<-|[<-|[]]] H; [left; reflexivity|cbn in H; lia]. }
  repeat split; vm_compute; reflexivity.
Qed.

(** REFUTED without the ordering: a column listed after a slack has its accumulated coefficient
    overwritten. *)
Theorem cut_conversion_unordered_refuted :
  exists nz coeff beta P b NB x,
  let terms := cc_terms (ncols P) nz coeff NB in
  (forall var, In var (map fst terms) -> col_at_bound P b var) /\ wf_lp P /\
  let c := setCutFromNBCoefficients nz coeff beta P b NB true 0 in
  ~ pdot (crow c) x - crhs c == Qsumf (fun vc => snd vc * dist P b (fst vc) x) terms - beta.
Proof.
  exists [], (fun _ => 1), 1, exP, exB, [2;0]%nat, (fun _ => 1).
  cbn zeta. split. { intros v [<-|[<-|[]]] H; [cbn in H; lia|left; reflexivity]. }
  split. { intros [|[|i]] Hi e He; cbn in *; intuition (subst; cbn; lia). }
  vm_compute. discriminate.
Qed.
Print Assumptions cut_conversion_unordered_refuted.

(** REFUTED for a free (or superbasic) nonbasic column: no shift is applied, so if the column's
    LP value is not zero the cut is displaced. Stated against the distance from the LP value. *)
Theorem cut_conversion_free_column_refuted :
  exists P b v x,
  colStatus b 0 = isFree /\ v 0%nat == 5 /\
  let c := setCutFromNBCoefficients [] (fun _ => 1) 1 P b [0]%nat true 0 in
  (* the cut in nonbasic space is  1 * (x0 - 5) >= 1, violated at x0 = 2 *)
  ~ (1 <= x 0%nat - v 0%nat) /\ satisfies_cut c x.
Proof.
  exists {| ncols := 1; nrows := 0; clo := fun _ => None; cup := fun _ => None;
            rows := fun _ => {| rcoef := []; rlo := None; rup := None |}; obj := fun _ => 0 |},
    {| colStatus := fun _ => isFree; rowStatus := fun _ => basic; reducedCost := fun _ => 0; rowPrice := fun _ => 0 |},
    (fun _ => 5), (fun _ => 2).
  repeat split.
  - vm_compute. intro H. apply H. reflexivity.
  - vm_compute. discriminate.
Qed.
Print Assumptions cut_conversion_free_column_refuted.
