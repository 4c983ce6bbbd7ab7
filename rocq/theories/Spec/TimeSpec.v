(** Time spent by a history of solver operations. *)
From Verif Require Import Prelude Model.Tolerance Model.SolverHelper Model.HotStart Spec.SolveSpec.
#[local] Open Scope Q_scope.

Definition is_limit (o : op) : bool := match o with OLimit _ => true | _ => false end.
Definition is_initial (o : op) : bool := match o with OInitial => true | _ => false end.
(** Clp: a limit of t >= 0 seconds means "until t seconds from now"; a negative one means no limit. [T h] is the time after [h]. *)
Fixpoint due (T : history -> Q) (h : history) : option Q :=
  match h with
  | [] => None
  | OLimit t :: _ => if Qltb t 0 then None else Some (T h + t)
  | _ :: h => due T h
  end.
(** A solver that keeps to its limits, up to [s] seconds per operation: an operation that does not solve takes at most [s]; one that
    solves ends at most [s] after it began or after its deadline. *)
Definition keeps (T : history -> Q) (s : Q) : Prop :=
  0 <= s /\ forall o h,
    T h <= T (o :: h) /\
    (is_solve o = false -> T (o :: h) <= T h + s) /\
    (is_solve o = true -> forall d, due T h = Some d -> T (o :: h) <= T h + s \/ T (o :: h) <= d + s).
(** In [tr] every solve of any kind is made while the limit [t] is in force. *)
Definition all_timed (t : Q) (tr : history) : Prop :=
  forall tr2 o tr1, tr = tr2 ++ o :: tr1 -> is_solve o = true -> deadline tr1 = Some t.
(** Operations that leave the problem alone (bounds, hot starts). *)
Definition leaves_problem (o : op) : Prop := match o with OLower _ _ | OUpper _ _ | OMark | OUnmark | OHot => False | _ => True end.
(** The time granted to a list of objectives, each (cut limit reached before, try extra hard): 12 times its limit for each LP that is solved. *)
Fixpoint granted (TL PRL : Q) (objs : list (bool * bool)) : Q :=
  match objs with
  | [] => 0
  | (limit, hard) :: objs => (if limit then 0 else 12 * (if hard then TL else PRL)) + granted TL PRL objs
  end.
Definition nQ (n : nat) : Q := inject_Z (Z.of_nat n).
