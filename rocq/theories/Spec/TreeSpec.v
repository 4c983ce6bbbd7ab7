(** Vocabulary for partial branch-and-bound trees: boxes, sides of a branching, which behaviours of Cbc are
    considered, and runs of the search. *)
From Verif Require Import Prelude Model.LP Model.Disjunction Model.EventHandler Spec.LPSpec Spec.DisjSpec.
From Coq Require Import Permutation.

Definition in_bounds (n : nat) (lo up : nat -> option Q) (x : nat -> Q) : Prop :=
  forall j, (j < n)%nat -> above (lo j) (x j) /\ below (up j) (x j).
(** The up (down) side of a node's branching: x_v >= ceil(value) (x_v <= floor(value)). *)
Definition on_side (nd : cnode) (up : bool) (x : nat -> Q) : Prop :=
  if up then inject_Z (Qceiling (cn_value nd)) <= x (cn_var nd) else x (cn_var nd) <= inject_Z (Qfloor (cn_value nd)).
(** Points of the branch of a node that is explored next. *)
Definition next_branch (n : nat) (nd : cnode) (x : nat -> Q) : Prop :=
  in_bounds n (cn_lo nd) (cn_hi nd) x /\ on_side nd (cur_up nd) x.
(** Points of a node that are still unexplored. *)
Definition unexplored (n : nat) (nd : cnode) (x : nat -> Q) : Prop :=
  in_bounds n (cn_lo nd) (cn_hi nd) x /\ (cn_left nd = 1%nat -> on_side nd (cur_up nd) x).

(** Branching decisions: an integer variable with fractional value. *)
Definition decision_ok (n : nat) (ints : nat -> bool) (v : nat) (value : Q) (dcode : Z) : Prop :=
  (v < n)%nat /\ ints v = true /\ ~ value == inject_Z (Qfloor value) /\ (dcode = 0%Z \/ dcode = (-1)%Z).

(** Every node that Cbc has numbered has its entry (before the first event there is none). *)
Definition recorded (st : hst) : Prop := h_stats st = [] \/ length (h_stats st) = h_count2 st.

(** Behaviours of Cbc that are considered:
    - the tree is handed to a treeStatus event in any order;
    - the first event is a treeStatus event, branchings are on fractional values of integer variables;
    - a created child that the handler took for pruned occurs only if the model has no choose method, and the
      event after it is a treeStatus event that does not save and finds the child's bounds in the solver. *)
Definition lawful (cfg : hcfg) (ints : nat -> bool) (st : hst) (a : action) : Prop :=
  match a with
  | ATree ord timeup _ _ slo sup =>
      Permutation (h_tree st) ord /\
      (recorded st \/
       (count_leaves cfg (set_tree st ord) < c_max cfg)%Z /\ timeup = false /\
       forall p nd, hd_error (rev (h_pruned st)) = Some p -> In nd (h_tree st) -> cn_num nd = ns_id p ->
         cn_lo nd = slo /\ cn_hi nd = sup)
  | ABranch _ out =>
      h_stats st <> [] /\ recorded st /\
      match out with
      | Created c => decision_ok (c_n cfg) ints (ci_var c) (ci_value c) (ci_dcode c)
      | Pruned _ _ _ _ => True
      | Misjudged c _ _ => c_nochoose cfg = true /\ decision_ok (c_n cfg) ints (ci_var c) (ci_value c) (ci_dcode c)
      end
  | ADrop _ | ASol _ => recorded st
  end.

(** The points that Cbc (not the handler) gives up in a step:
    - a term's problem is reported unsolvable while saving (when pruned nodes are kept such terms are written
      anyway): the points of the term;
    - a child is created with a box smaller than its branch: the points left out;
    - a branch is pruned (unless pruned nodes are kept): its points;
    - a node is dropped from the tree: its unexplored points. *)
Definition gives_up (cfg : hcfg) (st : hst) (a : action) (x : nat -> Q) : Prop :=
  match a with
  | ATree _ _ _ solve _ _ => c_keep cfg = false /\ exists i cs, solve i cs = None /\ forall c, In c cs -> sat_change c x
  | ABranch k out =>
      exists nd, nth_error (h_tree st) k = Some nd /\ next_branch (c_n cfg) nd x /\
      match out with
      | Created c | Misjudged c _ _ => ~ in_bounds (c_n cfg) (ci_lo c) (ci_hi c) x
      | Pruned _ _ _ _ => c_keep cfg = false
      end
  | ADrop k => exists nd, nth_error (h_tree st) k = Some nd /\ unexplored (c_n cfg) nd x
  | ASol _ => False
  end.

(** Histories: the states in which events occurred and the events, every one of which lets the search go on. *)
Inductive history (cfg : hcfg) (ok : hst -> action -> Prop) (s0 : hst) : list (hst * action) -> hst -> Prop :=
| hist_nil : history cfg ok s0 [] s0
| hist_step h s a s' : history cfg ok s0 h s -> ok s a -> step cfg s a = EvGo s' -> history cfg ok s0 (h ++ [(s, a)]) s'.

(** The root node: number 0, no parent, both branches open, a branching decision. *)
Definition root_ok (n : nat) (ints : nat -> bool) (root : cnode) : Prop :=
  cn_num root = 0%nat /\ cn_left root = 2%nat /\ cn_parent root = None /\
  decision_ok n ints (cn_var root) (cn_value root) (cn_dcode root).

(** Bounds that agree up to the tolerance 1e-7 with which changed bounds are detected. *)
Definition close_bound (a b : option Q) : Prop :=
  match a, b with
  | Some p, Some q => Qabs (p - q) < EPS7
  | None, None => True
  | _, _ => False
  end.
(** [a] is at least as tight as [b]. *)
Definition lo_within (a b : option Q) : Prop :=
  match b with None => True | Some q => match a with Some p => q <= p | None => False end end.
Definition up_within (a b : option Q) : Prop :=
  match b with None => True | Some q => match a with Some p => p <= q | None => False end end.
Definition box_within (n : nat) (lo up lo' up' : nat -> option Q) : Prop :=
  forall j, (j < n)%nat -> lo_within (lo j) (lo' j) /\ up_within (up j) (up' j).
