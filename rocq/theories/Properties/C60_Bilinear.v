(** C60: the post-Gomory ("bilinear") heuristic. *)
From Coq Require Import Sorting.Sorted.
From Verif Require Import Prelude Model.LP Model.Tolerance Model.SolverHelper Model.Bilinear Proofs.ToleranceP Proofs.SolverHelperP Properties.C46_ObjectiveUpdate.
#[local] Open Scope Q_scope.

(** ** The objective taken from a structural point. *)
(** In the nonbasic space, column [i] of the PRLP gets the coordinate of the point it stands for, over a common
    divisor, and nothing of the previous objective is left. *)
Theorem point_objective_nb : forall n nz vec norm pt c, psorted vec -> StronglySorted lt nz -> length nz = n -> nz <> [] ->
  exists d c', divisor true norm n d /\ setObjectiveFromStructuralPoint true n nz vec norm pt c = Some c' /\
  forall i, (i < n)%nat -> c' i == pval vec (nth i nz 0%nat) / d.
Proof.
  intros n nz vec norm pt c P S L NE. unfold setObjectiveFromStructuralPoint. destruct nz as [|x nz']; [congruence|].
  assert (M : EPS7 <= Qabs 1) by (vm_compute; discriminate).
  destruct (add_to_objective_mapped n vec true 1 norm (x :: nz') true c M P S) as (d & D & E & _). exists d. eexists. split; [exact D|].
  split; [reflexivity|]. intros i Hi. rewrite (E i) by lia. unfold start_coef. cbn [andb]. destruct (Nat.ltb_spec i n) as [_|]; [|lia].
  unfold Qdiv. ring.
Qed.
Print Assumptions point_objective_nb.

(** In the structural space it works exactly when the columns kept are the first ones: then column [i] gets
    the point's value. *)
Lemma set_from_point_spec nz pt : forall l c, (forall i, In i l -> nth_error nz i = Some i) ->
  exists c', set_from_point nz l pt c = Some c' /\ forall i, In i l -> c' i = pt i.
Proof.
  assert (G : forall l c, (forall i, In i l -> nth_error nz i = Some i) ->
     exists c', set_from_point nz l pt c = Some c' /\ (forall i, In i l -> c' i = pt i) /\ (forall i, ~ In i l -> c' i = c i)).
  { induction l as [|a l IH]; intros c H; cbn [set_from_point]; [exists c; split; [reflexivity|]; split; [intros i []|reflexivity]|].
    rewrite (H a) by (left; reflexivity). destruct (IH (upd c a (pt a))) as (c' & E & A & B); [intros i Hi; apply H; right; exact Hi|].
    exists c'. split; [exact E|]. split.
    - intros i [->|Hi]; [|apply A, Hi]. destruct (in_dec Nat.eq_dec i l) as [Y|N]; [apply A, Y|]. rewrite (B i N). apply upd_same.
    - intros i N. rewrite (B i) by (intro; apply N; right; assumption). unfold upd. destruct (Nat.eqb_spec i a) as [->|]; [elim N; left; reflexivity|reflexivity]. }
  intros l c H. destruct (G l c H) as (c' & E & A & _). exists c'. split; assumption.
Qed.
Lemma sorted_below : forall nz, StronglySorted lt nz -> forall i, (i < length nz)%nat -> (i + hd 0%nat nz <= nth i nz 0)%nat.
Proof.
  induction 1 as [|a l S IH F]; intros i Hi; [cbn [length] in Hi; lia|]. destruct i as [|i]; cbn [hd nth]; [lia|]. cbn [length] in Hi.
  specialize (IH i ltac:(lia)). destruct l as [|b l]; [cbn [length] in Hi; lia|]. cbn [hd] in IH. rewrite Forall_forall in F. specialize (F b (or_introl eq_refl)). lia.
Qed.
Lemma sorted_bounded : forall nz, StronglySorted lt nz -> (forall i, In i nz -> (i < length nz)%nat) -> forall i, (i < length nz)%nat -> nth_error nz i = Some i.
Proof.
  intros nz S B.
  assert (UP : forall nz, StronglySorted lt nz -> forall i m, (i < length nz)%nat -> (forall x, In x nz -> (x < m)%nat) -> (nth i nz 0 + length nz <= m + i)%nat).
  { induction 1 as [|a l S' IH F]; intros i m Hi BB; [cbn [length] in Hi; lia|]. destruct i as [|i]; cbn [nth length] in *.
    - destruct l as [|b l]; [specialize (BB a (or_introl eq_refl)); cbn [length]; lia|].
      specialize (IH 0%nat m ltac:(cbn [length]; lia) (fun x Hx => BB x (or_intror Hx))). cbn [nth length] in IH. rewrite Forall_forall in F. specialize (F b (or_introl eq_refl)). cbn [length]. lia.
    - specialize (IH i m ltac:(lia) (fun x Hx => BB x (or_intror Hx))). lia. }
  intros i Hi. pose proof (sorted_below nz S i Hi) as L. pose proof (UP nz S i (length nz) Hi B) as U.
  rewrite (nth_error_nth' nz 0%nat Hi). f_equal. lia.
Qed.
Theorem point_objective_structural : forall n nz vec norm pt c, StronglySorted lt nz -> nz <> [] ->
  (exists c', setObjectiveFromStructuralPoint false n nz vec norm pt c = Some c') <-> nz = seq 0 (length nz).
Proof.
  intros n nz vec norm pt c S NE. unfold setObjectiveFromStructuralPoint. destruct nz as [|x nz'] eqn:E; [congruence|]. rewrite <- E in *. clear NE. split.
  - intros (c' & H). assert (B : forall i, In i nz -> (i < length nz)%nat).
    { assert (G : forall l c0 c1, set_from_point nz l pt c0 = Some c1 -> forall i, In i l -> (i < length nz)%nat).
      { induction l as [|a l IH]; intros c0 c1 H0 i Hi; [destruct Hi|]. cbn [set_from_point] in H0. destruct (nth_error nz a) as [col|] eqn:N; [|discriminate].
        destruct Hi as [<-|Hi]; [apply nth_error_Some; congruence|apply (IH _ _ H0 i Hi)]. }
      exact (G nz c c' H). }
    apply nth_ext with (d := 0%nat) (d' := 0%nat); [rewrite seq_length; reflexivity|]. intros i Hi. rewrite seq_nth by exact Hi.
    pose proof (sorted_bounded nz S B i Hi) as N. apply nth_error_nth with (d := 0%nat) in N. rewrite N. reflexivity.
  - intro H. assert (A : forall i, In i nz -> nth_error nz i = Some i).
    { intros i Hi. rewrite H in Hi. apply in_seq in Hi. rewrite H. rewrite (nth_error_nth' _ 0%nat) by (rewrite seq_length; lia). rewrite seq_nth by lia. reflexivity. }
    destruct (set_from_point_spec nz pt nz c A) as (c' & E' & _). exists c'. exact E'.
Qed.
Print Assumptions point_objective_structural.
Theorem point_objective_structural_value : forall n nz vec norm pt c, nz = seq 0 (length nz) -> nz <> [] ->
  exists c', setObjectiveFromStructuralPoint false n nz vec norm pt c = Some c' /\ forall i, (i < length nz)%nat -> c' i = pt (nth i nz 0%nat).
Proof.
  intros n nz vec norm pt c H NE. unfold setObjectiveFromStructuralPoint. destruct nz as [|x nz'] eqn:E; [congruence|]. rewrite <- E in *. clear NE.
  assert (A : forall i, In i nz -> nth_error nz i = Some i).
  { intros i Hi. rewrite H in Hi. apply in_seq in Hi. rewrite H. rewrite (nth_error_nth' _ 0%nat) by (rewrite seq_length; lia). rewrite seq_nth by lia. reflexivity. }
  destruct (set_from_point_spec nz pt nz c A) as (c' & E' & V). exists c'. split; [exact E'|]. intros i Hi.
  assert (IN : In i nz) by (rewrite H; apply in_seq; lia). rewrite (V i IN). f_equal. rewrite H, seq_nth by exact Hi. reflexivity.
Qed.
Print Assumptions point_objective_structural_value.
Example point_objective_example : exists c', setObjectiveFromStructuralPoint false 2 [0; 1]%nat [] 1 (fun i => match i with 0%nat => 3 | _ => 4 end) (fun _ => 0) = Some c' /\
  c' 0%nat = 3 /\ c' 1%nat = 4 /\
  exists c2, setObjectiveFromStructuralPoint true 2 [0; 2]%nat [(0%nat, 3); (2%nat, 4)] 5 (fun _ => 0) (fun _ => 7) = Some c2 /\ c2 0%nat == 6 # 5 /\ c2 1%nat == 8 # 5.
Proof. eexists. split; [reflexivity|]. split; [reflexivity|]. split; [reflexivity|]. eexists. split; [reflexivity|]. split; vm_compute; reflexivity. Qed.
(** Refuted: it works for every list of kept columns — with columns 0 and 2 kept, position 2 of a vector of
    length 2 is read. *)
Theorem structural_point_refuted : forall pt c, setObjectiveFromStructuralPoint false 2 [0; 2]%nat [] 1 pt c = None.
Proof. reflexivity. Qed.
Print Assumptions structural_point_refuted.

(** ** The objective given to the post-Gomory problem. *)
Theorem post_objective_nb : forall n nz cutrow norm colsol c, exists d, divisor true norm n d /\
  forall j, (j < n)%nat -> post_objective true n nz cutrow norm colsol c j == pval cutrow j / d.
Proof.
  intros n nz cutrow norm colsol c. assert (M : EPS7 <= Qabs 1) by (vm_compute; discriminate).
  destruct (add_to_objective n cutrow true 1 norm true c M) as (d & D & E). exists d. split; [exact D|]. intros j Hj. unfold post_objective. rewrite E.
  unfold start_coef. cbn [andb]. destruct (Nat.ltb_spec j n) as [_|]; [|lia]. unfold Qdiv. ring.
Qed.
Print Assumptions post_objective_nb.
(** Refuted: in the structural space the objective is the PRLP's solution — columns the PRLP does not have keep
    their old coefficient instead of zero; and when the PRLP is unbounded the column values are used, not the
    ray that was computed (no argument of the function stands for the ray). *)
Theorem post_objective_stale_refuted : forall c colsol n cutrow norm, c 1%nat == 5 ->
  post_objective false n [0; 2]%nat cutrow norm colsol c 1%nat == 5 /\
  post_objective false n [0; 2]%nat cutrow norm colsol c 0%nat == colsol 0%nat /\ post_objective false n [0; 2]%nat cutrow norm colsol c 2%nat == colsol 1%nat.
Proof. intros c colsol n cutrow norm H. cbn [post_objective map seq length combine fold_left fst snd]. unfold upd. cbn [Nat.eqb]. split; [exact H|]. split; reflexivity. Qed.
Print Assumptions post_objective_stale_refuted.

(** ** The procedure itself. *)
Definition gain (code0 : Z) (ans : nat -> bilans) (j : nat) : Z := Z.max 0 (match j with O => code0 | _ => bi_code (ans j) end).
Definition total (code0 : Z) (ans : nat -> bilans) (calls : list nat) : Z := fold_right Z.add 0%Z (map (gain code0 ans) calls).
Lemma total_snoc code0 ans l j : total code0 ans (l ++ [j]) = (total code0 ans l + gain code0 ans j)%Z.
Proof. unfold total. induction l as [|a l IH]; cbn [app map fold_right]; [lia|]. rewrite IH. lia. Qed.
Lemma loop_spec code0 ans : forall fuel j s v t, (1 <= j)%nat -> bl_calls s = seq 0 j -> bl_cuts s = total code0 ans (seq 0 j) -> bl_deleted s = 0%nat ->
  (forall i, (1 <= i < j)%nat -> bi_limit (ans i) = false) ->
  bilLoop ans fuel j s = BReturn v t ->
  exists k, (j <= k <= j + fuel)%nat /\ bl_calls t = seq 0 k /\ v = total code0 ans (seq 0 k) /\ bl_deleted t = 1%nat /\ bl_presolve t = true /\
    forall i, (1 <= i < k)%nat -> bi_limit (ans i) = false.
Proof.
  assert (EX : forall f j s v t, bl_calls s = seq 0 j -> bl_cuts s = total code0 ans (seq 0 j) -> bl_deleted s = 0%nat ->
    (forall i, (1 <= i < j)%nat -> bi_limit (ans i) = false) -> exitBil s = BReturn v t ->
    exists k, (j <= k <= j + f)%nat /\ bl_calls t = seq 0 k /\ v = total code0 ans (seq 0 k) /\ bl_deleted t = 1%nat /\ bl_presolve t = true /\
    forall i, (1 <= i < k)%nat -> bi_limit (ans i) = false).
  { intros f j s v t C T D L E. injection E as <- <-. exists j. cbn [bl_calls bl_deleted bl_presolve]. rewrite D. repeat split; try assumption; lia. }
  induction fuel as [|f IH]; intros j s v t J C T D L E; cbn [bilLoop] in E; [exact (EX 0%nat j s v t C T D L E)|].
  destruct (bi_limit (ans j)) eqn:LM; [exact (EX (S f) j s v t C T D L E)|].
  destruct (match bi_prlp (ans j) with LDual => _ | _ => false end); [exact (EX (S f) j s v t C T D L E)|].
  assert (G : forall (b1 b2 : bool), (if b1 then exitBil s else if b2 then exitBil s else if bi_stationary (ans j) then exitBil s else if negb (bi_resolve (ans j)) then exitBil s else
    if (0 <=? bi_code (ans j))%Z then bilLoop ans f (S j) {| bl_cuts := bl_cuts s + bi_code (ans j); bl_calls := bl_calls s ++ [j]; bl_deleted := bl_deleted s; bl_presolve := bl_presolve s |}
    else exitBil {| bl_cuts := bl_cuts s; bl_calls := bl_calls s ++ [j]; bl_deleted := bl_deleted s; bl_presolve := bl_presolve s |}) = BReturn v t ->
    exists k, (j <= k <= j + S f)%nat /\ bl_calls t = seq 0 k /\ v = total code0 ans (seq 0 k) /\ bl_deleted t = 1%nat /\ bl_presolve t = true /\
      forall i, (1 <= i < k)%nat -> bi_limit (ans i) = false).
  { intros b1 b2 E1. destruct b1; [exact (EX (S f) j s v t C T D L E1)|]. destruct b2; [exact (EX (S f) j s v t C T D L E1)|].
    destruct (bi_stationary (ans j)); [exact (EX (S f) j s v t C T D L E1)|]. destruct (negb (bi_resolve (ans j))); [exact (EX (S f) j s v t C T D L E1)|].
    assert (SQ : seq 0 (S j) = seq 0 j ++ [j]) by (rewrite seq_S; reflexivity).
    assert (L' : forall i, (1 <= i < S j)%nat -> bi_limit (ans i) = false).
    { intros i Hi. destruct (Nat.eq_dec i j) as [->|N]; [exact LM|apply L; lia]. }
    assert (GJ : gain code0 ans j = Z.max 0 (bi_code (ans j))) by (unfold gain; destruct j; [lia|reflexivity]).
    destruct (Z.leb_spec 0 (bi_code (ans j))) as [P|P].
    - destruct (IH (S j) {| bl_cuts := bl_cuts s + bi_code (ans j); bl_calls := bl_calls s ++ [j]; bl_deleted := bl_deleted s; bl_presolve := bl_presolve s |} v t (le_S _ _ J)) as (k & K & R); [| | | exact L' | exact E1 |]; cbn [bl_calls bl_cuts bl_deleted].
      + rewrite C, SQ. reflexivity.
      + rewrite SQ, total_snoc, GJ, T. lia.
      + exact D.
      + exists k. split; [lia|exact R].
    - destruct (EX f (S j) {| bl_cuts := bl_cuts s; bl_calls := bl_calls s ++ [j]; bl_deleted := bl_deleted s; bl_presolve := bl_presolve s |} v t) as (k & K & R);
        [| | | exact L' | exact E1 |]; cbn [bl_calls bl_cuts bl_deleted].
      + rewrite C, SQ. reflexivity.
      + rewrite SQ, total_snoc, GJ, T. lia.
      + exact D.
      + exists k. split; [lia|exact R]. }
  destruct (bi_post (ans j)); [exact (G _ _ E)|exact (G _ _ E)|discriminate].
Qed.
(** However the solvers answer: the procedure exits the process, or makes at most USE_ITER_BILINEAR attempts (one after the
    other, none of the later ones after a limit is reached), returns the number of cuts they produced, has deleted
    its solver exactly once if it made one, and leaves the presolve hints as the parameters say. *)
Theorem bilinear_procedure : forall lim0 use timeout opt code0 ans v t,
  iterateDeepestCutPostGomory lim0 use timeout opt code0 ans = BReturn v t ->
  exists k, bl_calls t = seq 0 k /\ (k <= Z.to_nat use)%nat /\ v = total code0 ans (seq 0 k) /\ bl_presolve t = true /\
    bl_deleted t = (if lim0 || (use <=? 0)%Z then 0 else 1)%nat /\
    (lim0 = true -> k = 0%nat) /\ (forall i, (1 <= i < k)%nat -> bi_limit (ans i) = false).
Proof.
  intros lim0 use timeout opt code0 ans v t H. unfold iterateDeepestCutPostGomory in H. destruct (lim0 || (use <=? 0)%Z) eqn:Z0.
  { injection H as <- <-. exists 0%nat. repeat split; try lia. }
  apply Bool.orb_false_iff in Z0. destruct Z0 as [-> Z1]. apply Z.leb_gt in Z1.
  destruct timeout; [injection H as <- <-; exists 0%nat; repeat split; lia|]. destruct opt; cbn [negb] in H; [|discriminate].
  destruct (Z.ltb_spec code0 0) as [N|N].
  { injection H as <- <-. exists 1%nat. split; [reflexivity|]. split; [lia|]. split; [unfold total, gain; cbn [seq map fold_right]; lia|]. repeat split; try discriminate. lia. }
  destruct (Z.eqb_spec use 1) as [EQ|NE].
  { injection H as <- <-. exists 1%nat. split; [reflexivity|]. split; [lia|]. split; [unfold total, gain; cbn [seq map fold_right bl_cuts]; lia|]. repeat split; try discriminate. lia. }
  destruct (loop_spec code0 ans (Z.to_nat use - 1) 1%nat {| bl_cuts := code0; bl_calls := [0%nat]; bl_deleted := 0; bl_presolve := false |} v t (le_n 1) eq_refl) as (k & K & C & V & D & P & L); [|reflexivity|intros i Hi; lia|exact H|].
  { unfold total, gain. cbn [seq map fold_right bl_cuts]. lia. }
  exists k. split; [exact C|]. split; [lia|]. split; [exact V|]. split; [exact P|]. split; [exact D|]. split; [discriminate|exact L].
Qed.
Print Assumptions bilinear_procedure.
Definition exbil (c : Z) : bilans := {| bi_limit := false; bi_prlp := LOptimal; bi_ray := true; bi_ray2 := true; bi_post := LDual; bi_neginf := false; bi_dual2 := true;
  bi_pray := true; bi_pray2 := true; bi_stationary := false; bi_resolve := true; bi_code := c |}.
Example bilinear_example : exists t, iterateDeepestCutPostGomory false 4 false true 1 (fun j => exbil (if Nat.eqb j 2 then 0 else 1)) = BReturn 3 t /\ bl_calls t = [0; 1; 2; 3]%nat.
Proof. eexists. split; reflexivity. Qed.
