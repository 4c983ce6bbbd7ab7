(** C58: loading a problem from arrays. *)
From Verif Require Import Prelude Model.LP Model.Tolerance Model.SolverHelper Spec.LPSpec Spec.SolverSpec Proofs.ToleranceP Proofs.SolverHelperP Properties.C45_Minimisation.

Definition B : ascii := "B"%char.
Definition I_ : ascii := "I"%char.
(** The points the arrays describe: rows and bounds hold, binary and integer columns are integral. *)
Definition described (d : probarrays) (x : nat -> Q) : Prop :=
  feasible (pa_lp d) x /\
  forall j, (j < ncols (pa_lp d))%nat -> pa_type d j = B \/ pa_type d j = I_ -> exists z : Z, x j == inject_Z z.
Definition described_value (d : probarrays) (x : nat -> Q) : Q :=
  Qsumf (fun j => obj (pa_lp d) j * x j) (seq 0 (ncols (pa_lp d))) - pa_off d.
(** The points of a solver's problem. *)
Definition solver_point (P : osi) (x : nat -> Q) : Prop := feasible (os_lp P) x /\ integral (os_int P) (ncols (os_lp P)) x.

Lemma load_loop t n : forall a P J, let '(P', J') := fold_left (load_type t) (seq a n) (P, J) in
  ncols P' = ncols P /\ nrows P' = nrows P /\ rows P' = rows P /\ obj P' = obj P /\
  (forall j, (a <= j < a + n)%nat -> t j = B -> clo P' j = Some 0 /\ cup P' j = Some 1) /\
  (forall j, ~ (a <= j < a + n)%nat \/ t j <> B -> clo P' j = clo P j /\ cup P' j = cup P j) /\
  (forall j, (a <= j < a + n)%nat -> t j = B \/ t j = I_ -> J' j = true) /\
  (forall j, ~ (a <= j < a + n)%nat \/ ~ (t j = B \/ t j = I_) -> J' j = J j).
Proof.
  induction n as [|n IH]; intros a P J; cbn [seq fold_left].
  - repeat split; try lia; reflexivity.
  - destruct (load_type t (P, J) a) as [P1 J1] eqn:E.
    assert (H1 : ncols P1 = ncols P /\ nrows P1 = nrows P /\ rows P1 = rows P /\ obj P1 = obj P /\
      (t a = B -> clo P1 a = Some 0 /\ cup P1 a = Some 1) /\
      (forall j, j <> a \/ t j <> B -> clo P1 j = clo P j /\ cup P1 j = cup P j) /\
      (t a = B \/ t a = I_ -> J1 a = true) /\ (forall j, j <> a \/ ~ (t j = B \/ t j = I_) -> J1 j = J j)).
    { unfold load_type in E. fold B in E. fold I_ in E.
      destruct (Ascii.eqb_spec (t a) B) as [TB|TB]; destruct (Ascii.eqb_spec (t a) I_) as [TI|TI];
        try (rewrite TB in TI; discriminate TI);
        injection E as <- <-; cbn [set_box ncols nrows rows obj clo cup];
        (repeat (split; [reflexivity|])); (split; [|split; [|split]]).
      - intros _. rewrite !upd_same. split; reflexivity.
      - intros j [N|N]; [rewrite !upd_other by exact N; split; reflexivity|].
        assert (j <> a) by congruence. rewrite !upd_other by assumption. split; reflexivity.
      - intros _. apply upd_same.
      - intros j [N|N]; [apply upd_other; exact N|]. apply upd_other. intro; subst; tauto.
      - congruence.
      - split; reflexivity.
      - intros _. apply upd_same.
      - intros j [N|N]; [apply upd_other; exact N|]. apply upd_other. intro; subst; tauto.
      - congruence.
      - split; reflexivity.
      - tauto.
      - reflexivity. }
    destruct H1 as (A1 & A2 & A3 & A4 & A5 & A6 & A7 & A8).
    specialize (IH (S a) P1 J1). destruct (fold_left (load_type t) (seq (S a) n) (P1, J1)) as [P' J'].
    destruct IH as (B1 & B2 & B3 & B4 & B5 & B6 & B7 & B8).
    split; [congruence|]. split; [congruence|]. split; [congruence|]. split; [congruence|]. split; [|split; [|split]].
    + intros j Hj T. destruct (Nat.eq_dec j a) as [->|N]; [|apply B5; [lia|exact T]].
      destruct (B6 a) as [-> ->]; [left; lia|]. exact (A5 T).
    + intros j Hj. destruct (B6 j) as [-> ->]; [destruct Hj; [left; lia|right; assumption]|].
      apply A6. destruct Hj; [left; lia|right; assumption].
    + intros j Hj T. destruct (Nat.eq_dec j a) as [->|N]; [|apply B7; [lia|exact T]]. rewrite B8 by (left; lia). exact (A7 T).
    + intros j Hj. rewrite B8 by (destruct Hj; [left; lia|right; assumption]). apply A8. destruct Hj; [left; lia|right; assumption].
Qed.

(** What loading does, for every set of arrays of sense 1 or -1: the solver minimises; its points are
    those satisfying the rows, the bounds — except that columns of type 'B' get the bounds [0,1] — and
    integrality of 'B' and 'I' columns; its objective is the given one (times the sense) with the offset the
    solver object had instead of the given one. *)
Theorem load_arrays_effect : forall off d, pa_sense d == 1 \/ pa_sense d == -(1) ->
  let P := load_arrays off d in
  os_sense P == 1 /\ ncols (os_lp P) = ncols (pa_lp d) /\
  (forall x, solver_point P x <->
     in_rows (pa_lp d) x /\
     (forall j, (j < ncols (pa_lp d))%nat ->
        (pa_type d j = B -> 0 <= x j <= 1) /\
        (pa_type d j <> B -> above (clo (pa_lp d) j) (x j) /\ below (cup (pa_lp d) j) (x j)) /\
        (pa_type d j = B \/ pa_type d j = I_ -> exists z : Z, x j == inject_Z z))) /\
  (forall x, obj_value P x == pa_sense d * (Qsumf (fun j => obj (pa_lp d) j * x j) (seq 0 (ncols (pa_lp d))) - off)).
Proof.
  intros off d S. unfold load_arrays. pose proof (load_loop (pa_type d) (ncols (pa_lp d)) 0 (pa_lp d) (fun _ => false)) as L.
  destruct (fold_left (load_type (pa_type d)) (seq 0 (ncols (pa_lp d))) (pa_lp d, fun _ => false)) as [P1 J1].
  destruct L as (A1 & A2 & A3 & A4 & A5 & A6 & A7 & A8). cbv zeta.
  set (Q0 := {| os_lp := P1; os_int := J1; os_sense := pa_sense d; os_off := off |}).
  destruct (flip_equivalent Q0 1%Z S (or_introl eq_refl)) as (F1 & (F2 & F3 & F4) & F5 & _).
  split; [exact F1|]. split; [rewrite F2; exact A1|]. split.
  - intro x. unfold solver_point. rewrite F3, F4. cbn [Q0 os_lp os_int]. unfold feasible, in_box, in_rows, integral. rewrite A1, A2, A3. split.
    + intros [[Bx R] Z]. split; [exact R|]. intros j Hj. specialize (Bx j Hj). split; [|split].
      * intro T. destruct (A5 j) as [E1 E2]; [lia|exact T|]. rewrite E1, E2 in Bx. exact Bx.
      * intro T. destruct (A6 j) as [E1 E2]; [right; exact T|]. rewrite E1, E2 in Bx. exact Bx.
      * intro T. apply Z; [exact Hj|]. apply A7; [lia|exact T].
    + intros [R H]. split; [split; [|exact R]|].
      * intros j Hj. destruct (H j Hj) as (H1 & H2 & _). destruct (Ascii.eqb_spec (pa_type d j) B) as [T|T].
        -- destruct (A5 j) as [-> ->]; [lia|exact T|]. exact (H1 T).
        -- destruct (A6 j) as [-> ->]; [right; exact T|]. exact (H2 T).
      * intros j Hj T. apply (H j Hj). destruct (Ascii.eqb_spec (pa_type d j) B) as [T1|T1]; [left; exact T1|].
        destruct (Ascii.eqb_spec (pa_type d j) I_) as [T2|T2]; [right; exact T2|]. rewrite A8 in T by (right; tauto). discriminate.
  - intro x. specialize (F5 x). cbn [Q0 os_sense] in F5. rewrite F1 in F5. change (inject_Z 1) with 1 in F5. rewrite Qmult_1_l in F5. rewrite F5.
    unfold obj_value. cbn [Q0 os_lp os_off]. rewrite A1, A4. reflexivity.
Qed.
Print Assumptions load_arrays_effect.

(** Hence the problem is the described one when binary columns come with bounds [0,1] and the offset is
    the solver's (0 for a new solver). *)
Theorem load_arrays_faithful : forall off d, pa_sense d == 1 \/ pa_sense d == -(1) ->
  (forall j, (j < ncols (pa_lp d))%nat -> pa_type d j = B -> clo (pa_lp d) j = Some 0 /\ cup (pa_lp d) j = Some 1) ->
  pa_off d == off ->
  let P := load_arrays off d in
  os_sense P == 1 /\ (forall x, solver_point P x <-> described d x) /\
  (forall x, obj_value P x == pa_sense d * described_value d x).
Proof.
  intros off d S HB HO P. destruct (load_arrays_effect off d S) as (E1 & E2 & E3 & E4). fold P in E1, E2, E3, E4.
  split; [exact E1|]. split.
  - intro x. rewrite E3. unfold described, feasible, in_box. split.
    + intros [R H]. split; [split; [|exact R]|].
      * intros j Hj. destruct (H j Hj) as (H1 & H2 & _). destruct (Ascii.eqb_spec (pa_type d j) B) as [T|T]; [|exact (H2 T)].
        destruct (HB j Hj T) as [-> ->]. exact (H1 T).
      * intros j Hj T. exact (proj2 (proj2 (H j Hj)) T).
    + intros [[Bx R] Z]. split; [exact R|]. intros j Hj. split; [|split].
      * intro T. specialize (Bx j Hj). destruct (HB j Hj T) as [E E']. rewrite E, E' in Bx. exact Bx.
      * intros _. exact (Bx j Hj).
      * exact (Z j Hj).
  - intro x. rewrite E4. unfold described_value. rewrite HO. reflexivity.
Qed.
Print Assumptions load_arrays_faithful.

(** Example: two columns, x0 binary, x1 integer in [0,3], x0 + x1 >= 1, maximise x0 + 2 x1. *)
Definition exarr (lo0 : Q) (off : Q) (t1 : ascii) : probarrays :=
  {| pa_lp := {| ncols := 2; nrows := 1; clo := fun j => if Nat.eqb j 0 then Some lo0 else Some 0;
                 cup := fun j => if Nat.eqb j 0 then Some 1 else Some 3;
                 rows := fun _ => {| rcoef := [(0%nat, 1); (1%nat, 1)]; rlo := Some 1; rup := None |};
                 obj := fun j => if Nat.eqb j 0 then 1 else 2 |};
     pa_sense := -(1); pa_off := off; pa_type := fun j => if Nat.eqb j 0 then B else t1 |}.
Example faithful_meets : let d := exarr 0 0 I_ in pa_sense d == -(1) /\
  (forall j, (j < ncols (pa_lp d))%nat -> pa_type d j = B -> clo (pa_lp d) j = Some 0 /\ cup (pa_lp d) j = Some 1) /\
  pa_off d == 0 /\ described d (fun _ => 1) /\ obj_value (load_arrays 0 d) (fun _ => 1) == -(3).
Proof.
  split; [reflexivity|]. split.
  - intros [|j] _ T; [split; reflexivity|discriminate].
  - split; [reflexivity|]. split; [|vm_compute; reflexivity]. split; [split|].
    + intros [|j] _; vm_compute; split; discriminate.
    + intros j _. cbn [exarr pa_lp rows rlo rup rcoef above below]. split; [vm_compute; discriminate|exact I].
    + intros j _ _. exists 1%Z. reflexivity.
Qed.

(** Refuted: a binary column fixed to 1 by its bounds is freed again. *)
Theorem fixed_binary_refuted : exists d x, (pa_sense d == 1 \/ pa_sense d == -(1)) /\ solver_point (load_arrays 0 d) x /\ ~ described d x.
Proof.
  exists (exarr 1 0 I_), (fun j => if Nat.eqb j 0 then 0 else 1). split; [right; reflexivity|]. split.
  - apply load_arrays_effect; [right; reflexivity|]. split.
    + intros j _. cbn [exarr pa_lp rows rlo rup rcoef above below]. split; [vm_compute; discriminate|exact I].
    + intros [|[|j]] Hj; [| |cbn [exarr pa_lp ncols] in Hj; lia].
      * split; [intros _; vm_compute; split; discriminate|]. split; [intro T; exfalso; apply T; reflexivity|]. intros _. exists 0%Z. reflexivity.
      * split; [discriminate|]. split; [intros _; vm_compute; split; discriminate|]. intros _. exists 1%Z. reflexivity.
  - intros [[H _] _]. specialize (H 0%nat ltac:(cbn; lia)). revert H. vm_compute. intros [H _]. apply H. reflexivity.
Qed.
Print Assumptions fixed_binary_refuted.

(** Refuted: the objective offset of the data is dropped. *)
Theorem offset_refuted : exists d, (forall j, (j < ncols (pa_lp d))%nat -> pa_type d j = B -> clo (pa_lp d) j = Some 0 /\ cup (pa_lp d) j = Some 1) /\
  forall x, obj_value (load_arrays 0 d) x == pa_sense d * (described_value d x + 7).
Proof.
  exists (exarr 0 7 I_). split; [intros [|j] _ T; [split; reflexivity|discriminate]|].
  intro x. destruct (load_arrays_effect 0 (exarr 0 7 I_) (or_intror (Qeq_refl _))) as (_ & _ & _ & E). rewrite E.
  unfold described_value. cbn [exarr pa_off pa_sense]. ring.
Qed.
Print Assumptions offset_refuted.

(** Refuted: a semi-integer column (type 'N') is loaded as continuous. *)
Theorem semi_integer_refuted : exists d x, pa_type d 1%nat = "N"%char /\ solver_point (load_arrays 0 d) x /\ x 1%nat == 1 # 2.
Proof.
  exists (exarr 0 0 "N"%char), (fun j => if Nat.eqb j 0 then 1 else 1 # 2). split; [reflexivity|]. split; [|reflexivity].
  apply load_arrays_effect; [right; reflexivity|]. split.
  - intros j _. cbn [exarr pa_lp rows rlo rup rcoef above below]. split; [vm_compute; discriminate|exact I].
  - intros [|[|j]] Hj; [| |cbn [exarr pa_lp ncols] in Hj; lia].
    + split; [intros _; vm_compute; split; discriminate|]. split; [intro T; exfalso; apply T; reflexivity|]. intros _. exists 1%Z. reflexivity.
    + split; [discriminate|]. split; [intros _; vm_compute; split; discriminate|]. intros [T|T]; discriminate.
Qed.
Print Assumptions semi_integer_refuted.
