(** C54: applying cuts and reporting the resulting bound. *)
From Verif Require Import Prelude Model.LP Model.Tolerance Model.SolverHelper Spec.LPSpec Spec.SolverSpec Proofs.ToleranceP Proofs.SolverHelperP.

Definition lp_value (P : lp) (x : nat -> Q) : Q := Qsumf (fun j => obj P j * x j) (seq 0 (ncols P)).
(** [v] is the optimal value of the LP. *)
Definition lp_opt (P : lp) (v : Q) : Prop :=
  (exists x, feasible P x /\ lp_value P x == v) /\ forall y, feasible P y -> v <= lp_value P y.
(** The solver's contract: what it answers about the problem it holds is true. *)
Definition truthful (P : lp) (a : lpans) : Prop :=
  match a with LOptimal v => lp_opt P v | LInfeasible => forall x, ~ feasible P x | _ => True end.
(** [P'] is [P] with the cuts [l] added and nothing else. *)
Definition with_cuts (P : lp) (l : list cut) (P' : lp) : Prop :=
  ncols P' = ncols P /\ obj P' = obj P /\ nrows P' = (nrows P + length l)%nat /\
  forall x, feasible P' x <-> feasible P x /\ Forall (fun c => satisfies_cut c x) l.

(** The cuts that are asked for: [num] of them from [start] on (the whole pool by default). *)
Definition requested (cs : list cut) (start : nat) (num : option nat) (l : list cut) : Prop :=
  match num with
  | None => (start = O \/ cs = []) /\ l = cs
  | Some k => (k = O /\ l = []) \/ ((start + k <= length cs)%nat /\ l = firstn k (skipn start cs))
  end.
(** The solver tells the truth about the problem with these cuts, each time it is solved. *)
Definition honest (ask : solver_oracle) (P : lp) (cs : list cut) (start : nat) (num : option nat) : Prop :=
  forall k l P', requested cs start num l -> with_cuts P l P' -> truthful P' (ask k P').

Lemma add_rows_cuts P l : with_cuts P l (add_rows P (map cut_row l)).
Proof.
  split; [reflexivity|]. split; [reflexivity|]. split; [cbn [add_rows nrows]; rewrite map_length; reflexivity|].
  intro x. unfold feasible, in_box, in_rows. cbn [add_rows ncols nrows clo cup rows]. rewrite map_length. split.
  - intros [Bx R]. split; [split; [exact Bx|]|].
    + intros i Hi. specialize (R i ltac:(lia)). destruct (Nat.ltb_spec i (nrows P)); [exact R|lia].
    + apply Forall_forall. intros c Hc. destruct (In_nth l c c Hc) as (k & Hk & E).
      specialize (R (nrows P + k)%nat ltac:(lia)). destruct (Nat.ltb_spec (nrows P + k) (nrows P)); [lia|].
      replace (nrows P + k - nrows P)%nat with k in R by lia.
      rewrite (nth_indep _ _ (cut_row c)), map_nth, E in R by (rewrite map_length; exact Hk). exact (proj1 R).
  - intros [[Bx R] C]. split; [exact Bx|]. intros i Hi. destruct (Nat.ltb_spec i (nrows P)); [apply R; exact H|].
    destruct (nth_error l (i - nrows P)) as [c|] eqn:E; [|apply nth_error_None in E; lia].
    assert (Hk : (i - nrows P < length l)%nat) by lia.
    rewrite (nth_indep _ _ (cut_row c)), map_nth by (rewrite map_length; exact Hk).
    rewrite (nth_error_nth _ _ c E). split; [|exact I]. rewrite Forall_forall in C. apply C. apply nth_error_In with (1 := E).
Qed.

Lemma requested_ok cs start num l :
  (let k := match num with Some k => k | None => length cs end in
   if Nat.eqb k 0 then Some [] else if Nat.eqb start 0 && Nat.eqb k (length cs) then Some cs else range_of cs start k) = Some l ->
  requested cs start num l.
Proof.
  cbv zeta. intro C. unfold requested, range_of in *. destruct num as [k|].
  - destruct (Nat.eqb_spec k 0); [left; split; congruence|]. right.
    destruct (Nat.eqb_spec start 0), (Nat.eqb_spec k (length cs)); cbn [andb] in C.
    1: { injection C as <-. subst. cbn [skipn Nat.add]. rewrite firstn_all. split; [lia|reflexivity]. }
    all: destruct (Nat.leb_spec (start + k) (length cs)); [|discriminate]; injection C as <-; split; [assumption|reflexivity].
  - destruct cs as [|c r].
    + cbn [length Nat.eqb] in C. injection C as <-. split; [right|]; reflexivity.
    + cbn [length Nat.eqb] in C. rewrite Nat.eqb_refl in C. destruct (Nat.eqb_spec start 0); cbn [andb] in C; [injection C as <-; split; [left; assumption|reflexivity]|].
      destruct (Nat.leb_spec (start + S (length r)) (S (length r))); [lia|discriminate].
Qed.

(** When a value is returned, the solver holds the problem with exactly the requested cuts added, the
    value is its optimal value, and it is at least the optimal value before. *)
Theorem apply_cuts_value : forall ask P now cs start num compare P' v, honest ask P cs start num -> truthful P now ->
  applyCutsCustom ask (Some P) now cs start num compare = Applied P' (Some v) ->
  exists l, requested cs start num l /\ with_cuts P l P' /\ lp_opt P' v /\ (forall v0, lp_opt P v0 -> v0 <= v).
Proof.
  intros ask P now cs start num compare P' v HA HN H. unfold applyCutsCustom in H. cbv zeta in H.
  destruct (match now with LOptimal v0 => LOptimal v0 | _ => ask 0%nat P end) as [init| | |]; try discriminate.
  set (k := match num with Some k => k | None => length cs end) in H.
  destruct (if Nat.eqb k 0 then _ else _) as [l|] eqn:C; [|discriminate].
  pose proof (requested_ok cs start num l C) as RQ.
  pose proof (add_rows_cuts P l) as W. set (P1 := add_rows P (map cut_row l)) in *.
  assert (R : P' = P1 /\ lp_opt P' v).
  { pose proof (HA 1%nat l P1 RQ W) as T1. pose proof (HA 2%nat l P1 RQ W) as T2.
    destruct (ask 1%nat P1) as [w| | |]; try discriminate. destruct (Qltb w _).
    - destruct (ask 2%nat P1) as [w2| | |]; try discriminate. injection H as <- <-. split; [reflexivity|exact T2].
    - injection H as <- <-. split; [reflexivity|exact T1]. }
  destruct R as [-> O]. exists l. split; [exact RQ|]. split; [exact W|]. split; [exact O|].
  intros v0 [_ M]. destruct O as [(x & F & E) _]. destruct W as (W1 & W2 & _ & W4). apply W4 in F. specialize (M x (proj1 F)).
  unfold lp_value in *. rewrite W1, W2 in E. lra.
Qed.
Print Assumptions apply_cuts_value.

(** Infinity is returned only when the solver did not finish: it was not optimal on entry nor after a
    resolve (then nothing is added), or a limit was hit after adding the cuts, or the extra resolve (value
    below the comparison value) failed. *)
Theorem apply_cuts_infinity : forall ask P now cs start num compare P',
  applyCutsCustom ask (Some P) now cs start num compare = Applied P' None ->
  (P' = P /\ (forall v, now <> LOptimal v) /\ (forall v, ask 0%nat P <> LOptimal v)) \/
  (exists l, requested cs start num l /\ with_cuts P l P' /\ (ask 1%nat P' = LLimit \/ forall v, ask 2%nat P' <> LOptimal v)).
Proof.
  intros ask P now cs start num compare P' H. unfold applyCutsCustom in H. cbv zeta in H.
  destruct (match now with LOptimal v0 => LOptimal v0 | _ => ask 0%nat P end) as [init| | |] eqn:F.
  2-4: left; injection H as <-; split; [reflexivity|]; destruct now; try discriminate; (split; [discriminate|]); rewrite F; discriminate.
  right. set (k := match num with Some k => k | None => length cs end) in H.
  destruct (if Nat.eqb k 0 then _ else _) as [l|] eqn:C; [|discriminate].
  exists l. split; [exact (requested_ok cs start num l C)|]. pose proof (add_rows_cuts P l) as W.
  destruct (ask 1%nat (add_rows P (map cut_row l))) as [w| | |] eqn:A1; try discriminate.
  - destruct (Qltb w _); [|discriminate]. destruct (ask 2%nat (add_rows P (map cut_row l))) eqn:A2; try discriminate;
      injection H as <-; (split; [exact W|]); right; rewrite A2; discriminate.
  - injection H as <-. split; [exact W|]. left. exact A1.
Qed.
Print Assumptions apply_cuts_infinity.

(** getObjValue with cuts: the optimal value with all of them added, and the solver's problem is as before. *)
Theorem get_obj_value : forall ask P now c r, honest ask P (c :: r) 0 None -> truthful P now ->
  let '(a, P2) := getObjValueWithCuts ask P now (Some (c :: r)) in
  (ncols P2 = ncols P /\ nrows P2 = nrows P /\ obj P2 = obj P /\ forall x, feasible P2 x <-> feasible P x) /\
  (forall v, a = ObjFin v -> exists P', with_cuts P (c :: r) P' /\ lp_opt P' v) /\ a <> ObjNegInf /\ a <> ObjUndefined.
Proof.
  intros ask P now c r HA HN. unfold getObjValueWithCuts.
  pose proof (apply_cuts_value ask P now (c :: r) 0 None (- DBL_MAX)) as V.
  pose proof (apply_cuts_infinity ask P now (c :: r) 0 None (- DBL_MAX)) as W.
  assert (U : applyCutsCustom ask (Some P) now (c :: r) 0 None (- DBL_MAX) <> AppUndef).
  { unfold applyCutsCustom. cbv zeta. destruct (match now with LOptimal v0 => LOptimal v0 | _ => ask 0%nat P end); try discriminate.
    cbn [length Nat.eqb andb]. rewrite Nat.eqb_refl. destruct (ask 1%nat _); try discriminate. destruct (Qltb _ _); [|discriminate].
    destruct (ask 2%nat _); discriminate. }
  assert (K : forall P', (P' = P \/ P' = add_rows P (map cut_row (c :: r))) ->
     ncols (truncate_rows P' (nrows P)) = ncols P /\ nrows (truncate_rows P' (nrows P)) = nrows P /\
     obj (truncate_rows P' (nrows P)) = obj P /\ forall x, feasible (truncate_rows P' (nrows P)) x <-> feasible P x).
  { intros P' [->| ->]; (split; [reflexivity|]); (split; [reflexivity|]); (split; [reflexivity|]); intro x; [reflexivity|].
    unfold feasible, in_box, in_rows. cbn [truncate_rows add_rows ncols nrows clo cup rows]. split; intros [Bx R]; (split; [exact Bx|]);
      intros i Hi; specialize (R i Hi); destruct (Nat.ltb_spec i (nrows P)); try lia; exact R. }
  assert (E : forall P' v, applyCutsCustom ask (Some P) now (c :: r) 0 None (- DBL_MAX) = Applied P' v -> P' = P \/ P' = add_rows P (map cut_row (c :: r))).
  { intros P' v. unfold applyCutsCustom. cbv zeta. destruct (match now with LOptimal v0 => LOptimal v0 | _ => ask 0%nat P end);
      try (intro H; injection H as <- _; left; reflexivity).
    cbn [length Nat.eqb andb]. rewrite Nat.eqb_refl. destruct (ask 1%nat _); try discriminate.
    - destruct (Qltb _ _); [destruct (ask 2%nat _)|]; intro H; injection H as <- _; right; reflexivity.
    - intro H; injection H as <- _; right; reflexivity. }
  destruct (applyCutsCustom ask (Some P) now (c :: r) 0 None (- DBL_MAX)) as [P' [v|]| |] eqn:A.
  - split; [apply K; exact (E _ _ eq_refl)|]. split; [|split; discriminate]. intros v' Q. injection Q as <-.
    destruct (V P' v HA HN eq_refl) as (l & (_ & ->) & W1 & O & _). exists P'. split; assumption.
  - split; [apply K; exact (E _ _ eq_refl)|]. split; [discriminate|split; discriminate].
  - split; [split; [reflexivity|]; split; [reflexivity|]; split; reflexivity|]. split; [discriminate|split; discriminate].
  - congruence.
Qed.
Print Assumptions get_obj_value.
(** ... and without cuts nothing is solved: the value the solver holds, or an infinity. *)
Theorem get_obj_value_nocuts : forall ask P now cs, cs = None \/ cs = Some [] ->
  snd (getObjValueWithCuts ask P now cs) = P /\
  (forall v, fst (getObjValueWithCuts ask P now cs) = ObjFin v <-> now = LOptimal v) /\
  (fst (getObjValueWithCuts ask P now cs) = ObjPosInf <-> now = LInfeasible).
Proof.
  intros ask P now cs [->| ->]; cbn [getObjValueWithCuts fst snd]; (split; [reflexivity|]); destruct now;
    (split; [intro v'|]); split; intro H; try discriminate; try (injection H as <-); reflexivity.
Qed.
Print Assumptions get_obj_value_nocuts.

(** Example: minimise x over [0,1] with cut x >= 1/2: the value goes from 0 to 1/2. *)
Definition exP : lp := {| ncols := 1; nrows := 0; clo := fun _ => Some 0; cup := fun _ => Some 1;
                          rows := fun _ => {| rcoef := []; rlo := None; rup := None |}; obj := fun _ => 1 |}.
Definition half : cut := {| crow := [(0%nat, 1)]; crhs := 1 # 2 |}.
Definition two : cut := {| crow := [(0%nat, 1)]; crhs := 2 |}.
Definition exask (a : lpans) : solver_oracle := fun _ P => if Nat.eqb (nrows P) 0 then LOther else a.
Example apply_meets : truthful exP (LOptimal 0) /\ honest (exask (LOptimal (1 # 2))) exP [half] 0 None /\
  applyCutsCustom (exask (LOptimal (1 # 2))) (Some exP) (LOptimal 0) [half] 0 None (- DBL_MAX) =
    Applied (add_rows exP (map cut_row [half])) (Some (1 # 2)).
Proof.
  assert (LV : forall (x : nat -> Q), Qsumf (fun j => 1 * x j) (seq 0 1) == x 0%nat) by (intro x; cbn [seq]; rewrite Qsumf_cons; change (Qsumf _ []) with 0; ring).
  split; [split|split].
  - exists (fun _ => 0). split; [|vm_compute; reflexivity]. split; [|intros i Hi; cbn in Hi; lia]. intros j _. cbn. split; lra.
  - intros y [Bx _]. specialize (Bx 0%nat ltac:(cbn; lia)). unfold lp_value. cbn [exP obj ncols clo cup above below] in *. rewrite LV. apply Bx.
  - intros k l P' [_ ->] (W1 & W2 & W3 & W4). unfold exask. rewrite W3. cbn [exP nrows length Nat.add Nat.eqb truthful]. split.
    + exists (fun _ => 1 # 2). split; [apply W4; split|].
      * split; [|intros i Hi; cbn in Hi; lia]. intros j _. cbn. split; lra.
      * constructor; [vm_compute; discriminate|constructor].
      * unfold lp_value. rewrite W1, W2. vm_compute; reflexivity.
    + intros y F. apply W4 in F. destruct F as [_ C]. inversion_clear C as [|? ? C1 _].
      unfold satisfies_cut, half in C1. cbn [crow crhs] in C1. rewrite pdot_cons, pdot_nil in C1. cbn [fst snd] in C1.
      unfold lp_value. rewrite W1, W2. cbn [exP obj ncols]. rewrite LV. lra.
  - vm_compute. reflexivity.
Qed.

(** Refuted: "infinity when infeasible" — when the cuts make the problem infeasible the program ends. *)
Theorem infeasible_refuted : exists ask P cs, truthful P (LOptimal 0) /\ truthful (add_rows P (map cut_row cs)) LInfeasible /\
  ask 1%nat (add_rows P (map cut_row cs)) = LInfeasible /\
  applyCutsCustom ask (Some P) (LOptimal 0) cs 0 None (- DBL_MAX) = AppExit /\
  fst (getObjValueWithCuts ask P (LOptimal 0) (Some cs)) = ObjExits.
Proof.
  exists (exask LInfeasible), exP, [two]. split; [exact (proj1 apply_meets)|]. split.
  - intros x F. apply (add_rows_cuts exP [two]) in F. destruct F as [[Bx _] C]. inversion_clear C as [|? ? C1 _].
    unfold satisfies_cut, two in C1. cbn [crow crhs] in C1. rewrite pdot_cons, pdot_nil in C1. cbn [fst snd] in C1.
    specialize (Bx 0%nat ltac:(cbn; lia)). cbn [exP clo cup above below] in Bx. destruct Bx. lra.
  - split; [reflexivity|]. split; vm_compute; reflexivity.
Qed.
Print Assumptions infeasible_refuted.

(** Refuted: the guard against a NULL solver dereferences it; and a start index with the default number
    of cuts reads past the end of the pool. *)
Theorem guards_refuted :
  (forall ask now cs start num compare, applyCutsCustom ask None now cs start num compare = AppUndef) /\
  (forall ask P v cs start compare, (0 < start)%nat -> cs <> [] ->
     applyCutsCustom ask (Some P) (LOptimal v) cs start None compare = AppUndef).
Proof.
  split; [reflexivity|]. intros ask P v cs start compare HS NE. unfold applyCutsCustom, range_of. cbv zeta. cbn beta iota.
  destruct cs as [|c r]; [congruence|]. cbn [length Nat.eqb]. destruct (Nat.eqb_spec start 0); [lia|]. cbn [andb].
  destruct (Nat.leb_spec (start + S (length r)) (S (length r))); [lia|reflexivity].
Qed.
Print Assumptions guards_refuted.
