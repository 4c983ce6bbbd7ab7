(** What is expected of the branch-and-bound drivers, in terms of the calls they make, the files they leave and the
    events they are told about. *)
From Coq Require Import String.
From Verif Require Import Prelude Model.Tolerance Model.TextUtil Model.LP Model.SolverHelper Model.BBInfo Model.BBDrivers Spec.LPSpec.
#[local] Open Scope list_scope.

(** ** Settings. *)
(** The value a solver parameter has been given after a list of calls; [None]: it was left alone. *)
Fixpoint final (l : list call) (name : string) : option Q :=
  match l with
  | [] => None
  | c :: r =>
      match final r name, c with
      | Some v, _ => Some v
      | None, CSet m v => if String.eqb m name then Some v else None
      | None, CRead _ => None
      end
  end.
Definition set_exactly_if (l : list call) (name : string) (v : Q) (P : Prop) : Prop :=
  (P -> final l name = Some v) /\ (~ P -> final l name = None).
Definition only_names (l : list call) (names : list string) : Prop := forall n v, In (CSet n v) l -> In n names.

(** CPLEX's parameters for its families of cuts (its manual, section MIP Cuts; those of the callable library). *)
Definition all_cplex_cuts : list string := map (String.append "MIP_Cuts_")
  ["Cliques"; "Covers"; "GUBCovers"; "FlowCovers"; "PathCut"; "MCFCut"; "MIRCut"; "ZeroHalfCut"; "Gomory"; "LiftProj"; "Disjunctive";
   "Implied"; "LocalImplied"; "RLT"; "BQP"]%string.

(** The strategy is a set of options, each a bit of an int (enum BB_Strategy_Options). *)
Definition b_cbc := 1%Z. Definition b_cplex := 2%Z. Definition b_gurobi := 3%Z. Definition b_user_cuts := 4%Z.
Definition b_all_cuts_off := 5%Z. Definition b_presolve_off := 9%Z. Definition b_heuristics_off := 11%Z.
Definition b_use_best_bound := 13%Z. Definition b_strong := 14%Z.
(** The option counts: the strategy is positive and contains it. *)
Definition on (s b : Z) : Prop := (0 < s)%Z /\ Z.testbit s b = true.
(** A bound that is not taken to be infinite. *)
Definition is_bounded (q : Q) : Prop := Qabs q <= DBL_MAX - EPS7.
(** The name of a file holding a start solution: something, then one of the four endings. *)
Definition start_file (solver : string) (f : text) : Prop :=
  exists e p, In e [".sol.gz"; ".sol"; ".mst.gz"; ".mst"]%string /\ p <> [] /\ f = p ++ txt ("_" ++ solver ++ e)%string.

(** ** Cuts. *)
(** What an OsiRowCut says, and what a row handed over as ">=" says. *)
Definition cut_holds (c : orowcut) (x : nat -> Q) : Prop := above (oc_lb c) (pdot (oc_row c) x) /\ below (oc_ub c) (pdot (oc_row c) x).
Definition ge_holds (r : packed * Q) (x : nat -> Q) : Prop := snd r <= pdot (fst r) x.
(** Cut [i] of CPLEX' arrays: the entries from beg[i] up to beg[i+1] (the end of the arrays for the last one). *)
Definition slice {A} (a b : nat) (l : list A) : list A := firstn (b - a) (skipn a l).
Definition cpx_row (a : cpxcuts) (i : nat) : packed :=
  let b := nth i (cx_beg a) O in
  let e := nth (S i) (cx_beg a) (List.length (cx_ind a)) in
  combine (slice b e (cx_ind a)) (slice b e (cx_val a)).

(** ** Events. *)
(** Solutions, root passes and root MIP events of a Gurobi run. *)
Definition sols (evs : list gevent) : list (Q * Q) :=
  flat_map (fun e => match e with GSol o t => [(o, t)] | _ => [] end) evs.
Definition at_root (e : gevent) : bool := match e with GNode n _ _ _ => (n <=? 0)%Z | _ => false end.
Definition passes (evs : list gevent) : list gevent := filter at_root evs.
Definition pass_optimal (e : gevent) : bool := match e with GNode _ o _ _ => o | _ => false end.
Definition pass_point (e : gevent) : nat -> Q := match e with GNode _ _ x _ => x | _ => fun _ => 0 end.
Definition pass_time (e : gevent) : Q := match e with GNode _ _ _ t => t | _ => 0 end.
(** The objective of the relaxation's point: the offset plus the objective coefficients times the point. *)
Definition pass_value (g : gcb) (e : gevent) : Q :=
  gc_offset g + Qsumf (fun i => gc_obj g i * pass_point e i) (seq 0 (gc_vars g)).
(** Bounds of the MIP events at the root. *)
Definition mip_bounds (evs : list gevent) : list Q :=
  flat_map (fun e => match e with GMip n _ b => if (n <=? 0)%Z then [b] else [] | _ => [] end) evs.
Definition mip_iters (evs : list gevent) : list Z :=
  flat_map (fun e => match e with GMip n it _ => if (n <=? 0)%Z then [it] else [] | _ => [] end) evs.

(** CPLEX: incumbents reported; cut loops at the root; ends of the cut loop at the first two nodes. *)
Definition incumbents (evs : list cevent) : list (Q * Q) :=
  flat_map (fun e => match e with CInfo (Some o) t => [(o, t)] | _ => [] end) evs.
Definition loops (evs : list cevent) : list cevent :=
  filter (fun e => match e with CCut n CutLoop _ _ _ => (n =? 0)%Z | _ => false end) evs.
Definition ends (evs : list cevent) : list (Q * Q * Z) :=
  flat_map (fun e => match e with CCut n CutLast b t it => if (n <=? 1)%Z then [(b, t, it)] else [] | _ => [] end) evs.
