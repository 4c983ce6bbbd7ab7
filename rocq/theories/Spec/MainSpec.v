(** What one call of the generator is, from the point of view of one integer point: no model helper of the rounds of the
    main program occurs here. *)
From Verif Require Import Prelude Model.Tolerance Model.LP Model.NBSpace Model.CutHelper Model.Disjunction Model.EventHandler
  Model.Generator Model.Generate Model.ObjectiveCut Spec.TreeSpec Spec.LPSpec Spec.TermSpec Spec.DisjSpec
  Properties.C54_ApplyCuts Properties.C55_end_to_end.
#[local] Open Scope Q_scope.

(** [d] was built for the problem [R] and [x] was not given up: [d] is a prepared split of [R], or the leaves of the
    branch-and-bound tree built for [R], at no step of which Cbc gave up [x]. *)
Inductive built_for (R : lp) (ints : nat -> bool) (x : nat -> Q) : disj -> Prop :=
| built_split d : split_of R ints d -> built_for R ints x d
| built_tree cfg lo0 up0 root h st a st' :
    c_n cfg = ncols R -> TreeSpec.root_ok (c_n cfg) ints root -> (0 < c_max cfg)%Z ->
    history cfg (lawful cfg ints) (h_init lo0 up0 root disj_new) h st -> lawful cfg ints st a -> step cfg st a = EvStop st' ->
    TreeSpec.in_bounds (ncols R) (cn_lo root) (cn_hi root) x -> (forall s b, In (s, b) (h ++ [(st, a)]) -> ~ gives_up cfg s b x) ->
    built_for R ints x (h_disj st').

(** [cs] is what a call of a new generator on the problem [R] returned: its one-sided cuts come from the changes common
    to the terms of a disjunction, its other cuts from linear programs over points and rays of a disjunction; or the
    objective cut for an optimal solution of value [v]. *)
Definition vpc_call (ints : nat -> bool) (R : lp) (cs : list cut) (x : nat -> Q) : Prop :=
  exists E u o u' cuts, generateCuts E u [] o = Some (u', cuts) /\ cs = map ec cuts /\
  (forall c, In c (ca_root o) -> exists d r, built_for R ints x d /\ In r (one_sided_cuts d) /\ cut_of_row r c) /\
  (forall j a, In a (dr_target (ca_run o j)) -> a_optimal a = true -> a_clean a = CleanOK ->
     exists d, built_for R ints x d /\ inhabited (production R d (a_cut a))) /\
  (ca_disj o = D_OPTIMAL_SOLUTION_FOUND -> exists EPS offset v, ca_objcut o = objective_cut EPS R offset v /\
     (forall i, (i < ncols R)%nat -> ~ Qabs (obj R i - EPS) < EPS7) /\ v <= lp_value R x - offset).
