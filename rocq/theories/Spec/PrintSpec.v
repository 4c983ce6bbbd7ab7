(** How a reader understands the printed parameters: fields, lines, and what the documentation of printParams says about the twelve
    kinds of output. *)
From Coq Require Import String Permutation.
From Verif Require Import Prelude Model.TextUtil Model.Parameters Model.Names Spec.TextSpec Spec.NameSpec Spec.ParamSpec Model.ParamPrint.
From Verif Require Spec.ReportSpec.
#[local] Open Scope Q_scope.
#[local] Open Scope list_scope.

Definition nl : ascii := ascii_of_nat 10.
Definition comma : ascii := ","%char.
(** What stands between the separators. *)
Fixpoint split_on (c : ascii) (t : text) : list text :=
  match t with
  | [] => [[]]
  | a :: r => if Ascii.eqb a c then [] :: split_on c r
              else match split_on c r with [] => [[a]] | f :: l => (a :: f) :: l end
  end.
(** Every field is followed by the separator, so the last piece is empty; as lines of a file it does not count. *)
Definition lines_of (t : text) : list text := removelast (split_on nl t).

(** The names, in lower case. *)
Definition int_name (k : intParam) : text :=
  match k with
  | CUTLIMIT => txt "cutlimit" | DISJ_TERMS => txt "disj_terms" | GOMORY => txt "gomory" | MAX_NUM_HOT_START_VIOL => txt "max_num_hot_start_viol"
  | MODE => txt "mode" | PARTIAL_BB_STRATEGY => txt "partial_bb_strategy" | PARTIAL_BB_NUM_STRONG => txt "partial_bb_num_strong"
  | PARTIAL_BB_KEEP_PRUNED_NODES => txt "partial_bb_keep_pruned_nodes" | PREPROCESS => txt "preprocess" | PRLP_FLIP_BETA => txt "prlp_flip_beta"
  | ROUNDS => txt "rounds" | STRENGTHEN => txt "strengthen" | TEMP => txt "temp" | USE_ALL_ONES => txt "use_all_ones" | USE_DISJ_LB => txt "use_disj_lb"
  | USE_ITER_BILINEAR => txt "use_iter_bilinear" | USE_TIGHT_POINTS => txt "use_tight_points" | USE_TIGHT_RAYS => txt "use_tight_rays"
  | USE_UNIT_VECTORS => txt "use_unit_vectors" | VERBOSITY => txt "verbosity" | RANDOM_SEED => txt "random_seed" | BB_RUNS => txt "bb_runs"
  | BB_STRATEGY => txt "bb_strategy" | BB_MODE => txt "bb_mode"
  end.
Definition double_name (k : doubleParam) : text :=
  match k with
  | AWAY => txt "away" | BB_TIMELIMIT => txt "bb_timelimit" | MAX_SUPPORT_REL => txt "max_support_rel" | EPS => txt "eps" | INF => txt "inf"
  | IP_OBJ => txt "ip_obj" | MIN_ORTHOGONALITY => txt "min_orthogonality" | PARTIAL_BB_TIMELIMIT => txt "partial_bb_timelimit"
  | PRLP_TIMELIMIT => txt "prlp_timelimit" | TIMELIMIT => txt "timelimit"
  end.
Definition string_name (k : stringParam) : text :=
  match k with
  | DISJ_OPTIONS => txt "disj_options" | FILENAME => txt "filename" | LOGFILE => txt "logfile" | OPTFILE => txt "optfile" | SOLFILE => txt "solfile"
  end.

(** What is shown for a value.  Integers exactly (INT_MAX as 'inf', INT_MIN and the number after it as '-inf'), doubles to four digits,
    infinite ones as 'inf' and '-inf', strings as they are. *)
Definition shows_int (v : Z) (t : text) : Prop :=
  ((Z.abs v < 2147483647)%Z -> signed t v) /\ ((2147483647 <= v)%Z -> t = txt "'inf'") /\ ((v <= -2147483647)%Z -> t = txt "'-inf'").
Definition shows_num (v : Q) (t : text) : Prop := exists w, ReportSpec.number t w /\ Qabs (w - v) <= (1 # 2000) * Qabs v.
Definition shows_double (v : dbl) (t : text) : Prop :=
  match v with
  | DFin q => (Qabs q <= DBL_MAXv - EPS7 -> shows_num q t) /\ (DBL_MAXv <= q -> t = txt "'inf'") /\ (q <= - DBL_MAXv -> t = txt "'-inf'")
  | DInf neg => t = if neg then txt "'-inf'" else txt "'inf'"
  | DNaN => True
  end.
(** Name and what its value has to look like. *)
Definition item : Type := text * (text -> Prop).
Definition numeric_of (O : orders) (P : params) : list item :=
  map (fun k => (int_name k, fun t => forall v, get_int P k = Done v -> shows_int v t)) (o_int O) ++
  map (fun k => (double_name k, fun t => forall v, get_double P k = Done v -> shows_double v t)) (o_double O).
Definition strings_of (O : orders) (P : params) : list item :=
  map (fun k => (string_name k, fun t => get_string P k = Done t)) (o_string O).
Definition constants_of (O : orders) : list item :=
  map (fun c => (lowerCaseString (fst c), shows_int (snd c))) (o_ci O) ++ map (fun c => (lowerCaseString (fst c), shows_num (snd c))) (o_cd O).
(** An order runs through everything once. *)
Definition complete (O : orders) : Prop :=
  Permutation (o_int O) all_int /\ Permutation (o_double O) all_double /\ Permutation (o_string O) all_string /\
  Permutation (o_ci O) intConsts /\ Permutation (o_cd O) doubleConsts.

(** The documentation (VPCParameters.hpp:850-861): which things, names or values or both, and the separator. *)
Inductive shape := Both | Names | Values.
Definition matches (s : shape) (i : item) (t : text) : Prop :=
  match s with
  | Names => t = fst i
  | Values => snd i t
  | Both => exists v, t = fst i ++ comma :: v /\ snd i v
  end.
Definition documented (what : Z) (O : orders) (P : params) : option (list item * shape * ascii) :=
  match what with
  | 0 => Some (numeric_of O P, Both, nl) | 1 => Some (numeric_of O P, Names, comma) | 2 => Some (numeric_of O P, Values, comma)
  | 3 => Some (strings_of O P, Both, nl) | 4 => Some (strings_of O P, Names, comma) | 5 => Some (strings_of O P, Values, comma)
  | 6 => Some (numeric_of O P ++ strings_of O P, Both, nl) | 7 => Some (numeric_of O P ++ strings_of O P, Names, comma)
  | 8 => Some (numeric_of O P ++ strings_of O P, Values, comma)
  | 9 => Some (constants_of O, Both, nl) | 10 => Some (constants_of O, Names, comma) | 11 => Some (constants_of O, Values, comma)
  | _ => None
  end%Z.

(** What the C library promises for "%.3e": a number of four digits (a multiple of a thousandth of the leading power of ten), correct to
    half a unit of the last one. *)
Definition prints_e (pe : Q -> text) (q : Q) : Prop :=
  (List.length (pe q) <= 20)%nat /\ exists w, ReportSpec.number (pe q) w /\ (q == 0 -> w == 0) /\
  forall e : Z, ReportSpec.power e <= Qabs q < ReportSpec.power (e + 1) ->
    (exists k : Z, w == inject_Z k * ReportSpec.power (e - 3)) /\ Qabs (w - q) <= (1 # 2) * ReportSpec.power (e - 3).
Definition library_ok (pe : Q -> text) (P : params) : Prop :=
  (forall k q, get_double P k = Done (DFin q) -> Qabs q <= DBL_MAXv - EPS7 -> prints_e pe q) /\
  (forall c, In c doubleConsts -> prints_e pe (snd c)).

(** Order of texts, character by character. *)
Fixpoint text_lt (a b : text) : Prop :=
  match a, b with
  | [], [] => False
  | [], _ :: _ => True
  | _ :: _, [] => False
  | x :: a', y :: b' => (nat_of_ascii x < nat_of_ascii y)%nat \/ x = y /\ text_lt a' b'
  end.
