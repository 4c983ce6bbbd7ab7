(** C42: parameter domains.  Integer parameters are always inside their declared range; a set call with
    any other value ends the program.  Double parameters: up to 1e-7, except that NaN passes every check
    and INF accepts anything (refuted). *)
From Verif Require Import Prelude Model.TextUtil Model.Parameters Spec.ParamSpec Proofs.ParamP.
#[local] Open Scope Z_scope.

Theorem int_domain : forall st P k v, reach st P -> get_int P k = Done v -> declared_int k v /\ is_int v.
Proof.
  intros st P k v R. apply reach_wf in R. unfold get_int. destruct (lookup int_eqb (ints P) k) as [p|] eqn:E; [|discriminate].
  intro H. injection H as <-. destruct (lookup_int_shape P k p R E) as (p0 & L & S).
  destruct R as (_ & _ & _ & A & _). destruct (A k p E) as [A1 A2]. split; [|exact A2].
  apply (int_allowed_declared k p0 p L S A2), A1.
Qed.
Print Assumptions int_domain.

Theorem int_set_iff : forall st P k v, reach st P -> is_int v ->
  (declared_int k v -> exists P', set_int P k v = Done P') /\
  (~ declared_int k v -> set_int P k v = Exit1).
Proof.
  intros st P k v R V. apply reach_wf in R.
  destruct (set_int_outcome P k v R V) as [(P' & E & D)|[E D]]; split; intro; try contradiction; eauto.
Qed.
Print Assumptions int_set_iff.

(** Doubles other than INF: the stored value is NaN or within 1e-7 of the declared interval. *)
Theorem double_domain : forall st P k v, reach st P -> k <> INF -> get_double P k = Done v ->
  v = DNaN \/ declared_double k v.
Proof.
  intros st P k v R N. apply reach_wf in R. unfold get_double. destruct (lookup double_eqb (doubles P) k) as [p|] eqn:E; [|discriminate].
  intro H. injection H as <-. destruct (lookup_double_shape P k p R E) as (p0 & L & S).
  destruct R as (_ & _ & _ & _ & A). apply (double_allowed_declared k p0 p L S N), (A k p E).
Qed.
Print Assumptions double_domain.

Theorem double_set_iff : forall st P k v, reach st P -> k <> INF ->
  (v = DNaN \/ declared_double k v -> exists P', set_double P k v = Done P') /\
  (v <> DNaN -> ~ declared_double k v -> set_double P k v = Exit1).
Proof.
  intros st P k v R N. apply reach_wf in R. destruct (wf_double P k R) as (p & E & _).
  destruct (lookup_double_shape P k p R E) as (p0 & L & S). unfold set_double. rewrite E. unfold d_set.
  pose proof (double_allowed_declared k p0 {| dp_name := dp_name p; dp_val := v; dp_min := dp_min p; dp_max := dp_max p |} L S N) as D.
  cbn [dp_val] in D |- *. destruct (d_val_is_allowed _ _).
  - split; [eauto|]. intros N1 N2. destruct (proj1 D eq_refl); contradiction.
  - split; [intro H; apply D in H; discriminate|reflexivity].
Qed.
Print Assumptions double_set_iff.

Example domains_meet : exists P', set_double new_params EPS (DFin (1 # 1000000)) = Done P' /\
  set_double P' AWAY (DFin (1 # 100)) = Exit1 /\ set_int P' VERBOSITY 3 = Exit1.
Proof. eexists. split; [vm_compute; reflexivity|]. split; vm_compute; reflexivity. Qed.

(** Refuted: NaN is accepted by every double parameter, and INF (declared to be the largest double only)
    accepts every value. *)
Theorem double_domain_refuted : forall st P, reach st P ->
  (forall k, exists P', set_double P k DNaN = Done P' /\ get_double P' k = Done DNaN) /\
  (forall v, exists P', set_double P INF v = Done P' /\ get_double P' INF = Done v).
Proof.
  intros st P R.
  assert (I : forall v, exists P', set_double P INF v = Done P').
  { intro v. apply reach_wf in R. destruct (wf_double P INF R) as (p & E & _).
    destruct (lookup_double_shape P INF p R E) as (p0 & L & S). cbn in L. injection L as <-. injection S as S1 S2 S3.
    unfold set_double. rewrite E. unfold d_set, d_val_is_allowed. cbn [dp_val dp_min dp_max]. rewrite S2, S3.
    unfold dpar. cbn [dp_min dp_max]. replace (d_isInfinity dbl_max dbl_max) with true by (vm_compute; reflexivity).
    cbn [orb andb]. eauto. }
  split; [intro k|intro v].
  - assert (E : exists P', set_double P k DNaN = Done P').
    { destruct (double_eqb k INF) eqn:Q; [apply double_eqb_eq in Q; subst k; apply I|].
      apply (double_set_iff st P k DNaN R); [|left; reflexivity]. intros ->. discriminate. }
    destruct E as [P' E]. exists P'. split; [exact E|]. apply (set_double_effect _ _ _ _ E).
  - destruct (I v) as [P' E]. exists P'. split; [exact E|]. apply (set_double_effect _ _ _ _ E).
Qed.
Print Assumptions double_domain_refuted.

(** Refuted: values described in the comments of the enumerations are rejected: STRENGTHEN 3 (line 67),
    MODE 2 (line 56), PRLP_TIMELIMIT -2 (line 111). *)
Theorem documented_values_refuted : forall st P, reach st P ->
  set_int P STRENGTHEN 3 = Exit1 /\ set_int P MODE 2 = Exit1 /\ set_double P PRLP_TIMELIMIT (DFin (-2)) = Exit1.
Proof.
  intros st P R. split; [|split].
  - apply (int_set_iff st P STRENGTHEN 3 R); [unfold is_int; lia|]. cbn [declared_int]. lia.
  - apply (int_set_iff st P MODE 2 R); [unfold is_int; lia|]. cbn [declared_int]. lia.
  - apply (double_set_iff st P PRLP_TIMELIMIT (DFin (-2)) R); [discriminate|discriminate|].
    cbn [declared_double]. lra.
Qed.
Print Assumptions documented_values_refuted.

(** A new object passes its own checks (the constructor never ends the program) and holds the documented
    defaults that matter most. *)
Theorem defaults :
  Forall (fun e => i_val_is_allowed (snd e) (ip_val (snd e)) = true) (ints new_params) /\
  Forall (fun e => d_val_is_allowed (snd e) (dp_val (snd e)) = true) (doubles new_params) /\
  get_int new_params BB_STRATEGY = Done 536 /\ get_int new_params DISJ_TERMS = Done 0 /\
  get_int new_params CUTLIMIT = Done (-1) /\ get_int new_params MODE = Done 0 /\
  get_double new_params EPS = Done (DFin (1 # 10000000)).
Proof.
  split; [repeat constructor|]. split; [repeat constructor|]. split; [|split; [|split; [|split]]]; reflexivity.
Qed.
Print Assumptions defaults.
