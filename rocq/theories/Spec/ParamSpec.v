(** Vocabulary for the parameter object: what was declared for each parameter, and what a user can do. *)
From Verif Require Import Prelude Model.TextUtil Model.Parameters.
#[local] Open Scope Z_scope.

(** An [int] of the platform. *)
Definition is_int (v : Z) : Prop := - 2147483648 <= v <= 2147483647.

(** The values declared acceptable for an integer parameter. *)
Definition declared_int (k : intParam) (v : Z) : Prop :=
  match k with
  | MODE => v = 0 \/ v = 1 \/ v = 3 \/ v = 4
  | BB_MODE => 0 <= v <= 111
  | VERBOSITY | PREPROCESS | STRENGTHEN => 0 <= v <= 2
  | USE_DISJ_LB | USE_ALL_ONES | PARTIAL_BB_KEEP_PRUNED_NODES => 0 <= v <= 1
  | GOMORY | PRLP_FLIP_BETA => -1 <= v <= 1
  | RANDOM_SEED | MAX_NUM_HOT_START_VIOL => -1 <= v
  | USE_ITER_BILINEAR | ROUNDS => 0 <= v
  | _ => True
  end.

(** The interval declared for a double parameter, each end widened by less than 1e-7 (one 10^-7 unit,
    exclusive).  [DFin] values only. *)
Definition within (lo hi v : Q) : Prop := (lo - (1 # 10000000) < v < hi + (1 # 10000000))%Q.
Definition declared_double (k : doubleParam) (v : dbl) : Prop :=
  match k, v with
  | (TIMELIMIT | PARTIAL_BB_TIMELIMIT | BB_TIMELIMIT), DFin q => (0 - (1 # 10000000) < q)%Q
  | (TIMELIMIT | PARTIAL_BB_TIMELIMIT | BB_TIMELIMIT | PRLP_TIMELIMIT), DInf neg => neg = false
  | PRLP_TIMELIMIT, DFin q => ((-1) - (1 # 10000000) < q)%Q
  | (MIN_ORTHOGONALITY | EPS | MAX_SUPPORT_REL), DFin q => within 0 1 q
  | AWAY, DFin q => within 0 (1 # 1000) q
  | INF, DFin q => q == DBL_MAXv
  | IP_OBJ, (DFin _ | DInf _) => True
  | _, _ => False
  end.

(** What can be done to a parameter object. *)
Inductive pcall :=
| SetInt (k : intParam) (v : Z)
| SetDouble (k : doubleParam) (v : dbl)
| SetString (k : stringParam) (s : text)
| SetByName (name value : text)
| ReadFile (file : option (list text)).
(** A C++ caller can only pass ints. *)
Definition call_ok (c : pcall) : Prop := match c with SetInt _ v => is_int v | _ => True end.
Definition exec (strtod : text -> strtod_result) (P : params) (c : pcall) : res params :=
  match c with
  | SetInt k v => set_int P k v
  | SetDouble k v => set_double P k v
  | SetString k s => set_string P k s
  | SetByName n t => match set_by_name strtod P n t with
                     | Done (P', _) => Done P' | Exit1 => Exit1 | Terminated => Terminated | Undef => Undef end
  | ReadFile f => readParams strtod P f
  end.
(** Objects a program can hold: constructed, then changed by calls that returned. *)
Inductive reach (strtod : text -> strtod_result) : params -> Prop :=
| reach_new : reach strtod new_params
| reach_step P c P' : reach strtod P -> call_ok c -> exec strtod P c = Done P' -> reach strtod P'.

(** Everything observable agrees, except possibly one integer parameter. *)
Definition same_but_int (k : intParam) (P P' : params) : Prop :=
  (forall k', k' <> k -> get_int P' k' = get_int P k') /\
  (forall d, get_double P' d = get_double P d) /\ (forall s, get_string P' s = get_string P s).
Definition same_but_double (k : doubleParam) (P P' : params) : Prop :=
  (forall i, get_int P' i = get_int P i) /\
  (forall k', k' <> k -> get_double P' k' = get_double P k') /\ (forall s, get_string P' s = get_string P s).
Definition same_but_string (k : stringParam) (P P' : params) : Prop :=
  (forall i, get_int P' i = get_int P i) /\
  (forall d, get_double P' d = get_double P d) /\ (forall k', k' <> k -> get_string P' k' = get_string P k').
