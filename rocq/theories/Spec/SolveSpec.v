(** What a history of solver operations means: the bounds, the hot start, the factorization, the deadline. *)
From Verif Require Import Prelude Model.Tolerance Model.SolverHelper Model.HotStart.

(** The bounds after a history that began with bounds [b]. *)
Fixpoint lower_of (b : nat -> option Q) (h : history) : nat -> option Q :=
  match h with
  | [] => b
  | OLower j v :: h => fun i => if Nat.eqb i j then v else lower_of b h i
  | _ :: h => lower_of b h
  end.
Fixpoint upper_of (b : nat -> option Q) (h : history) : nat -> option Q :=
  match h with
  | [] => b
  | OUpper j v :: h => fun i => if Nat.eqb i j then v else upper_of b h i
  | _ :: h => upper_of b h
  end.
(** Lower and upper bounds to begin with; two histories leave the same bounds. *)
Definition bounds := ((nat -> option Q) * (nat -> option Q))%type.
Definition same_bounds (b : bounds) (h h' : history) : Prop :=
  forall i, lower_of (fst b) h i = lower_of (fst b) h' i /\ upper_of (snd b) h i = upper_of (snd b) h' i.
(** The side [ub] of column [col] is [v]. *)
Definition bound_is (b : bounds) (h : history) (ub : bool) (col : nat) (v : option Q) : Prop :=
  (if ub then upper_of (snd b) h col else lower_of (fst b) h col) = v.

(** Osi: a hot start must be marked before it is used or unmarked, and is marked once.  [None]: misused. *)
Fixpoint hot_state (m : bool) (h : history) : option bool :=
  match h with
  | [] => Some m
  | o :: h =>
      match hot_state m h, o with
      | None, _ => None
      | Some true, OHot => Some true
      | Some true, OUnmark => Some false
      | Some true, OMark => None
      | Some false, OMark => Some true
      | Some false, OHot => None
      | Some false, OUnmark => None
      | Some m, _ => Some m
      end
  end.
(** The hot start a history leaves: the operations before the last mark, if there is one since. *)
Fixpoint last_mark (h : history) : option history :=
  match h with [] => None | OMark :: h => Some h | _ :: h => last_mark h end.

Definition is_solve (o : op) : bool :=
  match o with OHot | OResolve | OInitial | OClean _ | ODual => true | _ => false end.
(** The history at the last solve (the solve included). *)
Fixpoint last_solve (h : history) : option history :=
  match h with [] => None | o :: h' => if is_solve o then Some h else last_solve h' end.
Definition count (p : op -> bool) (h : history) : nat := length (filter p h).
Definition is_hot (o : op) : bool := match o with OHot => true | _ => false end.
Definition is_resolve (o : op) : bool := match o with OResolve => true | _ => false end.
Definition is_clean (o : op) : bool := match o with OClean _ => true | _ => false end.

(** The histories at which a hot start was solved (newest first, the solve excluded). *)
Fixpoint hots (h : history) : list history :=
  match h with [] => [] | OHot :: h => h :: hots h | _ :: h => hots h end.
(** Hot starts that ran into the iteration limit. *)
Fixpoint limited (A : answers) (h : history) : nat :=
  match h with [] => 0 | o :: h' => (if is_hot o && q_lim A h then 1 else 0) + limited A h' end.

(** Is the factorization enabled? *)
Fixpoint fact_state (f : bool) (h : history) : bool :=
  match h with [] => f | OFactOn :: _ => true | OFactOff :: _ => false | _ :: h => fact_state f h end.
(** The deadline in force. *)
Fixpoint deadline (h : history) : option Q :=
  match h with [] => None | OLimit t :: _ => Some t | _ :: h => deadline h end.
(** In [tr] every re-solve has the deadline [t]. *)
Fixpoint timed (t : Q) (tr : history) : Prop :=
  match tr with [] => True | OResolve :: tr => deadline tr = Some t /\ timed t tr | _ :: tr => timed t tr end.

(** The status is one thing at a time. *)
Definition exclusive (A : answers) : Prop :=
  forall h, (q_opt A h = true -> q_pinf A h = false /\ q_dinf A h = false).

(** The hot start in force was marked at the bounds of [r]. *)
Definition marked_at (b : bounds) (h r : history) : Prop := exists m, last_mark h = Some m /\ same_bounds b m r.
(** What the solver reports after [h] is about the bounds of [r]: it was solved at those bounds, and they still hold. *)
Definition solved_at (b : bounds) (h r : history) : Prop :=
  exists s, last_solve h = Some s /\ same_bounds b s r /\ same_bounds b h r.

(** Infeasibilities in the status Clp reports: its secondary status (2, 3, 4: the scaled problem is optimal but the unscaled one has
    primal, dual, both kinds of infeasibilities; 9: dual infeasibilities after postsolve) or the sums; and the cleanup they call for: 1 primal,
    2 dual. *)
Definition primal_trouble (A : answers) (h : history) : Prop := q_sec A h = 2%Z \/ ~ (Qabs (q_sumP A h) < EPS7)%Q.
Definition dual_trouble (A : answers) (h : history) : Prop := q_sec A h = 3%Z \/ q_sec A h = 9%Z \/ ~ (Qabs (q_sumD A h) < EPS7)%Q.
Definition calls_for (A : answers) (h : history) (k : Z) : Prop :=
  k = 1%Z /\ (primal_trouble A h \/ ~ dual_trouble A h /\ q_sec A h = 4%Z) \/ k = 2%Z /\ ~ primal_trouble A h /\ dual_trouble A h.
