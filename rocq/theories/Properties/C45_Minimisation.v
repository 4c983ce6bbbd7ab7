(** C45: maximisation problems are converted to equivalent minimisation problems. *)
From Verif Require Import Prelude Model.LP Model.TextUtil Model.SolverHelper Spec.LPSpec Spec.SolverSpec Proofs.ToleranceP Proofs.SolverHelperP.

(** The conversion used when reading an instance and at the start of cut generation: the result
    minimises, has the same solutions, its value is the old value (minimisation) or its negative
    (maximisation), and the same point is better. *)
Theorem minimise_equivalent : forall P, os_sense P == 1 \/ os_sense P == -(1) ->
  let P' := minimise P in
  os_sense P' == 1 /\ same_solutions P P' /\
  (forall x, obj_value P' x == os_sense P * obj_value P x) /\
  (forall x y, better P' x y <-> better P x y).
Proof.
  intros P H P'. assert (V : os_sense P' == 1 /\ same_solutions P P' /\ forall x, obj_value P' x == os_sense P * obj_value P x).
  { unfold P', minimise. destruct (Qltb_reflect (os_sense P) (1 # 1000)) as [L|L].
    - assert (E : os_sense P == -(1)) by (destruct H as [H|H]; [rewrite H in L; lra|exact H]).
      split; [reflexivity|]. split; [apply flip_same|]. intro x. rewrite flip_value, E. ring.
    - assert (E : os_sense P == 1) by (destruct H as [H|H]; [exact H|rewrite H in L; lra]).
      split; [exact E|]. split; [apply same_refl|]. intro x. rewrite E. ring. }
  destruct V as (V1 & V2 & V3). split; [exact V1|]. split; [exact V2|]. split; [exact V3|].
  intros x y. unfold better. rewrite !V3. destruct H as [H|H]; rewrite H, V1; split; (intros [[A B]|[A B]]; [|]);
    first [left; split; [reflexivity|lra] | right; split; [reflexivity|lra] | exfalso; lra].
Qed.
Print Assumptions minimise_equivalent.

(** flipObj, to either sense. *)
Theorem flip_equivalent : forall P (sense : Z), os_sense P == 1 \/ os_sense P == -(1) -> sense = 1%Z \/ sense = (-1)%Z ->
  let P' := flipObj sense P in
  os_sense P' == inject_Z sense /\ same_solutions P P' /\
  (forall x, os_sense P' * obj_value P' x == os_sense P * obj_value P x) /\
  (forall x y, better P' x y <-> better P x y).
Proof.
  intros P sense H S P'.
  assert (V : os_sense P' == inject_Z sense /\ same_solutions P P' /\ forall x, os_sense P' * obj_value P' x == os_sense P * obj_value P x).
  { unfold P', flipObj. destruct (isVal (os_sense P) (inject_Z sense) EPS7) eqn:E; cbn [negb].
    - apply isVal_iff in E. assert (Q : os_sense P == inject_Z sense).
      { destruct H as [H|H], S as [->| ->]; rewrite H in E |- *; try reflexivity; revert E; vm_compute; discriminate. }
      split; [exact Q|]. split; [apply same_refl|]. intro x. reflexivity.
    - assert (Q : inject_Z sense == - os_sense P).
      { assert (N : ~ Qabs (os_sense P - inject_Z sense) < EPS7) by (rewrite <- isVal_iff; congruence).
        destruct H as [H|H], S as [->| ->]; rewrite H in N |- *; try reflexivity; exfalso; apply N; reflexivity. }
      split; [reflexivity|]. split; [apply flip_same|]. intro x. rewrite flip_value. cbn [flip_to os_sense]. rewrite Q. ring. }
  destruct V as (V1 & V2 & V3). split; [exact V1|]. split; [exact V2|]. split; [exact V3|].
  intros x y. pose proof (V3 x) as Vx. pose proof (V3 y) as Vy. unfold better.
  destruct H as [H|H], S as [->| ->]; rewrite ?H, ?V1 in *; cbn [inject_Z] in *;
    change (inject_Z 1) with 1 in *; change (inject_Z (-1)) with (-(1)) in *;
    split; (intros [[A B]|[A B]]; [|]);
    first [left; split; [reflexivity|lra] | right; split; [reflexivity|lra] | exfalso; lra].
Qed.
Print Assumptions flip_equivalent.

(** Reading an instance: when a problem is returned it was read from that file with a non-negative
    status and the result minimises the same problem; a missing file, a name without extension or a
    negative status ends the program. *)
Theorem initialize_solver : forall fexists readLp readMps filename,
  (forall P', initializeSolver fexists readLp readMps filename = Loaded P' ->
     (fexists filename = true \/ fexists (filename ++ txt ".gz") = true \/ fexists (filename ++ txt ".bz2") = true) /\
     exists P status, (readLp filename = Some (status, P) \/ readMps filename = Some (status, P)) /\
       (0 <= status)%Z /\
       (os_sense P == 1 \/ os_sense P == -(1) ->
        os_sense P' == 1 /\ same_solutions P P' /\ (forall x, obj_value P' x == os_sense P * obj_value P x) /\
        (forall x y, better P' x y <-> better P x y))) /\
  (fexists filename = false -> fexists (filename ++ txt ".gz") = false -> fexists (filename ++ txt ".bz2") = false ->
     initializeSolver fexists readLp readMps filename = LoadExit) /\
  (~ In "."%char filename -> initializeSolver fexists readLp readMps filename = LoadExit) /\
  (forall s1 s2 P1 P2, readLp filename = Some (s1, P1) -> readMps filename = Some (s2, P2) -> (s1 < 0)%Z -> (s2 < 0)%Z ->
     initializeSolver fexists readLp readMps filename = LoadExit).
Proof.
  intros fexists readLp readMps filename. unfold initializeSolver. split; [|split; [|split]].
  - intros P' H. destruct (fexists filename) eqn:E1, (fexists (filename ++ txt ".gz")) eqn:E2, (fexists (filename ++ txt ".bz2")) eqn:E3;
      cbn [negb andb] in H; try discriminate;
    (split; [auto|]);
    (destruct (parseFilename filename) as [|d i ext]; [discriminate|]);
    (destruct (read_instance readLp readMps ext filename) as [P| |] eqn:R; try discriminate; injection H as <-;
     unfold read_instance in R; cbv zeta in R;
     assert (X : exists status, (readLp filename = Some (status, P) \/ readMps filename = Some (status, P)) /\ (0 <= status)%Z)
     by (destruct (text_eqb ext (txt "lp")); [|destruct (text_eqb ext (txt "mps"))];
         (destruct (readLp filename) as [[s1 P1]|] eqn:RL; destruct (readMps filename) as [[s2 P2]|] eqn:RM;
          try discriminate;
          try (destruct (Z.ltb_spec s1 0); [discriminate|]; injection R as <-; exists s1; split; [left; reflexivity|lia]);
          try (destruct (Z.ltb_spec s2 0); [discriminate|]; injection R as <-; exists s2; split; [right; reflexivity|lia])));
     destruct X as (status & X1 & X2); exists P, status; split; [exact X1|]; split; [exact X2|]; apply minimise_equivalent).
  - intros -> -> ->. reflexivity.
  - intro N. assert (F : find_last_of is_dot filename = None).
    { clear - N. induction filename as [|c r IH]; [reflexivity|]. cbn [find_last_of]. rewrite IH by (intro I; apply N; right; exact I).
      destruct (is_dot c) eqn:E; [|reflexivity]. apply Ascii.eqb_eq in E. subst c. exfalso. apply N. left. reflexivity. }
    unfold parseFilename. rewrite F. destruct (_ && _); reflexivity.
  - intros s1 s2 P1 P2 R1 R2 L1 L2. destruct (_ && _); [reflexivity|]. destruct (parseFilename filename); [reflexivity|].
    unfold read_instance. rewrite R1, R2. destruct (Z.ltb_spec s1 0), (Z.ltb_spec s2 0); try lia.
    destruct (text_eqb _ _); [reflexivity|]. destruct (text_eqb _ _); reflexivity.
Qed.
Print Assumptions initialize_solver.

(** Example: maximise 3x - 2 with x in [0,1]. *)
Definition exmax : osi :=
  {| os_lp := {| ncols := 1; nrows := 0; clo := fun _ => Some 0; cup := fun _ => Some 1; rows := fun _ => {| rcoef := []; rlo := None; rup := None |};
                 obj := fun _ => 3 |};
     os_int := fun _ => true; os_sense := -(1); os_off := 2 |}.
Example minimise_meets : os_sense exmax == -(1) /\ obj_value exmax (fun _ => 1) == 1 /\
  obj_value (minimise exmax) (fun _ => 1) == -(1) /\ better exmax (fun _ => 1) (fun _ => 0) /\
  better (minimise exmax) (fun _ => 1) (fun _ => 0).
Proof. split; [reflexivity|]. split; [reflexivity|]. split; [reflexivity|]. split; [right|left]; split; reflexivity. Qed.

(** Refuted: the test [sense < 1e-3] also catches "no objective" (sense 0): such a problem becomes the
    minimisation of the negated coefficients. *)
Theorem no_objective_refuted : exists P, os_sense P == 0 /\ os_sense (minimise P) == 1 /\
  exists x y, obj_value (minimise P) x < obj_value (minimise P) y.
Proof.
  exists {| os_lp := os_lp exmax; os_int := os_int exmax; os_sense := 0; os_off := 0 |}.
  split; [reflexivity|]. split; [reflexivity|]. exists (fun _ => 1), (fun _ => 0). reflexivity.
Qed.
Print Assumptions no_objective_refuted.
