(** What the user is told about the command line: options, the parameter each sets, and the ways to write one.  Taken from the
    help text (main.cpp:1958-2010) and, where that is silent, the option's name. *)
From Verif Require Import Prelude Model.TextUtil Model.Parameters Spec.TextSpec Spec.ParamSpec.
#[local] Open Scope string_scope.

(** The parameter an option sets. *)
Inductive target := TInt (p : intParam) | TDouble (p : doubleParam) | TString (p : stringParam).

(** Options that give a parameter its value: long name, letter, parameter. *)
Definition plain : list (String.string * option ascii * target) :=
  [ ("away", None, TDouble AWAY); ("bb_runs", Some "b"%char, TInt BB_RUNS); ("bb_mode", None, TInt BB_MODE);
    ("bb_timelimit", None, TDouble BB_TIMELIMIT); ("cutlimit", Some "c"%char, TInt CUTLIMIT);
    ("disj_terms", Some "d"%char, TInt DISJ_TERMS); ("disj_options", Some "D"%char, TString DISJ_OPTIONS);
    ("file", Some "f"%char, TString FILENAME); ("gomory", Some "g"%char, TInt GOMORY); ("ip_obj", Some "i"%char, TDouble IP_OBJ);
    ("logfile", Some "l"%char, TString LOGFILE); ("max_support_rel", None, TDouble MAX_SUPPORT_REL);
    ("max_num_hot_start_viol", None, TInt MAX_NUM_HOT_START_VIOL); ("mode", Some "m"%char, TInt MODE);
    ("optfile", Some "o"%char, TString OPTFILE); ("partial_bb_strategy", Some "s"%char, TInt PARTIAL_BB_STRATEGY);
    ("partial_bb_num_strong", Some "S"%char, TInt PARTIAL_BB_NUM_STRONG);
    ("partial_bb_keep_pruned", None, TInt PARTIAL_BB_KEEP_PRUNED_NODES);
    ("partial_bb_timelimit", Some "T"%char, TDouble PARTIAL_BB_TIMELIMIT); ("random_seed", None, TInt RANDOM_SEED);
    ("rounds", Some "r"%char, TInt ROUNDS); ("prlp_timelimit", Some "R"%char, TDouble PRLP_TIMELIMIT);
    ("solfile", None, TString SOLFILE); ("timelimit", Some "t"%char, TDouble TIMELIMIT);
    ("use_all_ones", None, TInt USE_ALL_ONES); ("use_disj_lb", None, TInt USE_DISJ_LB);
    ("use_iter_bilinear", None, TInt USE_ITER_BILINEAR); ("use_tight_points", None, TInt USE_TIGHT_POINTS);
    ("use_tight_rays", None, TInt USE_TIGHT_RAYS); ("use_unit_vectors", None, TInt USE_UNIT_VECTORS);
    ("verbosity", Some "v"%char, TInt VERBOSITY) ].

(** Options with a value that do something else. *)
Definition others : list (String.string * option ascii) :=
  [ ("bb_strategy", Some "B"%char); ("cbc", None); ("cplex", None); ("gurobi", None); ("user_cuts", None); ("use_best_bound", None);
    ("bb_all_cuts", None); ("bb_gmics", None); ("bb_heuristics", None); ("bb_presolve", None); ("bb_strong_branching", None);
    ("preprocess", None); ("temp", None); ("tikz", None) ].
(** All options with a value. *)
Definition valued : list (String.string * option ascii) := map fst plain ++ others.
(** All long names. *)
Definition long_names : list String.string := "help" :: map fst valued.

(** The 0/1 switches of the branch-and-bound strategy: what 1 turns on and off, what 0 turns on and off. *)
Record toggle := { tg_name : String.string; tg_on1 : list bbOption; tg_off1 : list bbOption; tg_on0 : list bbOption; tg_off0 : list bbOption }.
Definition toggles : list toggle :=
  [ {| tg_name := "cbc"; tg_on1 := [cbc]; tg_off1 := [cplex; gurobi]; tg_on0 := []; tg_off0 := [cbc] |};
    {| tg_name := "cplex"; tg_on1 := [cplex]; tg_off1 := [cbc; gurobi]; tg_on0 := []; tg_off0 := [cplex] |};
    {| tg_name := "gurobi"; tg_on1 := [gurobi]; tg_off1 := [cbc; cplex]; tg_on0 := []; tg_off0 := [gurobi] |};
    {| tg_name := "user_cuts"; tg_on1 := [user_cuts]; tg_off1 := []; tg_on0 := []; tg_off0 := [user_cuts] |};
    {| tg_name := "bb_all_cuts"; tg_on1 := [all_cuts_on]; tg_off1 := [all_cuts_off]; tg_on0 := [all_cuts_off]; tg_off0 := [all_cuts_on] |};
    {| tg_name := "bb_gmics"; tg_on1 := [gmics_on]; tg_off1 := [gmics_off]; tg_on0 := [gmics_off]; tg_off0 := [gmics_on] |};
    {| tg_name := "bb_strong_branching"; tg_on1 := [strong_branching_on]; tg_off1 := []; tg_on0 := []; tg_off0 := [strong_branching_on] |} ].
(** [s'] is [s] with [on] added and [off'] removed. *)
Definition switched (on off' : list bbOption) (s s' : Z) : Prop :=
  forall o, use_bb_option s' o = true <-> In o on \/ (use_bb_option s o = true /\ ~ In o off').

(** [a] starts [b]. *)
Definition starts (a b : text) : Prop := exists r, b = (a ++ r)%list.
(** [a] is a way to write the long name [n]: in full, or so much of it that no other name starts that way. *)
Definition stands_for (a : text) (n : String.string) : Prop :=
  a = txt n \/ (starts a (txt n) /\ forall n', In n' long_names -> starts a (txt n') -> n' = n).

(** The ways to write option [n] (letter [c]) with value [v]: --n=v, --n v, -c v, -cv. *)
Inductive spelled (n : String.string) (c : option ascii) (v : text) : list text -> Prop :=
| sp_equals a : stands_for a n -> spelled n c v [(txt "--" ++ a ++ "="%char :: v)%list]
| sp_next a : stands_for a n -> spelled n c v [(txt "--" ++ a)%list; v]
| sp_letter l : c = Some l -> spelled n c v [["-"%char; l]; v]
| sp_joined l : c = Some l -> v <> [] -> spelled n c v [("-"%char :: l :: v)%list].

(** A text the program reads as an integer: a numeral within the range of long. *)
Definition readable (v : text) (z : Z) : Prop := numeral v z /\ (- 2 ^ 63 <= z < 2 ^ 63)%Z.

(** A list of settings: each the words of the command line, the parameter and the value. *)
Definition setting := (list text * target * text)%type.
Definition is_setting (s : setting) : Prop :=
  let '(args, t, v) := s in exists n c, In (n, c, t) plain /\ spelled n c v args.
Definition words (l : list setting) : list text := flat_map (fun '(args, _, _) => args) l.
(** [v] is the last value given for [t]. *)
Definition last_given (t : target) (l : list setting) (v : text) : Prop :=
  exists l1 args l2, l = (l1 ++ (args, t, v) :: l2)%list /\ forall s, In s l2 -> snd (fst s) <> t.
Definition not_given (t : target) (l : list setting) : Prop := forall s, In s l -> snd (fst s) <> t.
(** A value acceptable for the parameter ([strtod] is the C library's conversion: the whole text must be a number; NaN is let
    through, see C42). *)
Definition acceptable (strtod : text -> strtod_result) (t : target) (v : text) : Prop :=
  match t with
  | TInt p => exists z, readable v z /\ is_int z /\ declared_int p z
  | TDouble p => fst (parseDouble (strtod v)) = true /\ (sd_val (strtod v) = DNaN \/ declared_double p (sd_val (strtod v)))
  | TString _ => True
  end.
