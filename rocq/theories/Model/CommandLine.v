(** Model of the command line of the executable: src/main.cpp [processArgs] (lines 1308-2021) and the part of [startUp]
    (lines 903-1053) that follows it, with the C library's getopt_long.
    Simplifications: the messages and the help text are not modelled; exit(1) is [Exit1]; strtod is an argument; which solvers
    the program was built with (USE_GUROBI, USE_CPLEX, USE_CBC) is a record. *)
From Verif Require Import Prelude Model.TextUtil Model.Parameters.
#[local] Open Scope Z_scope.
#[local] Open Scope char_scope.

(** A character as an int. *)
Definition ch (c : ascii) : Z := Z.of_nat (nat_of_ascii c).

(** ** The tables. *)
(** main.cpp:1315 [short_opts]: a letter followed by ':' takes an argument. *)
Definition short_opts : text := txt "b:B:c:d:D:f:g:hi:l:m:o:r:R:s:S:t:T:v:".
(** struct option of <getopt.h>: name, has_arg, val (flag is 0 in every entry). *)
Record longopt := { lo_name : text; lo_arg : bool; lo_val : Z }.
(** An entry of long_opts with required_argument, main.cpp:1290-1366. *)
Definition req (n : String.string) (v : Z) : longopt := {| lo_name := txt n; lo_arg := true; lo_val := v |}.
Arguments req n%string_scope.
(** main.cpp:1316-1365 [long_opts]. *)
Definition long_opts : list longopt :=
  [ req "away" (ch "a" * ch "2");
    req "bb_runs" (ch "b");
    req "bb_mode" (ch "b" * ch "1");
    req "bb_strategy" (ch "B");
    req "bb_timelimit" (ch "B" * ch "0");
    req "cbc" (ch "B" * ch "1" * ch "1");
    req "cplex" (ch "B" * ch "1" * ch "2");
    req "gurobi" (ch "B" * ch "1" * ch "3");
    req "user_cuts" (ch "B" * ch "2");
    req "use_best_bound" (ch "B" * ch "3");
    req "bb_all_cuts" (ch "B" * ch "4");
    req "bb_gmics" (ch "B" * ch "5");
    req "bb_heuristics" (ch "B" * ch "6");
    req "bb_presolve" (ch "B" * ch "7");
    req "bb_strong_branching" (ch "B" * ch "8");
    req "cutlimit" (ch "c");
    req "disj_terms" (ch "d");
    req "disj_options" (ch "D");
    req "file" (ch "f");
    req "gomory" (ch "g");
    {| lo_name := txt "help"; lo_arg := false; lo_val := ch "h" |};
    req "ip_obj" (ch "i");
    req "logfile" (ch "l");
    req "max_support_rel" (ch "m" * ch "1");
    req "max_num_hot_start_viol" (ch "m" * ch "2");
    req "mode" (ch "m");
    req "optfile" (ch "o");
    req "partial_bb_strategy" (ch "s");
    req "partial_bb_num_strong" (ch "S");
    req "partial_bb_keep_pruned" (ch "S" * ch "1");
    req "partial_bb_timelimit" (ch "T");
    req "preprocess" (ch "p" * ch "1");
    req "random_seed" (ch "r" * ch "1");
    req "rounds" (ch "r");
    req "prlp_timelimit" (ch "R");
    req "solfile" (ch "s" * ch "1");
    req "temp" (ch "t" * ch "1");
    req "tikz" (ch "t" * ch "2");
    req "timelimit" (ch "t");
    req "use_all_ones" (ch "u" * ch "1");
    req "use_disj_lb" (ch "u" * ch "2");
    req "use_iter_bilinear" (ch "u" * ch "3");
    req "use_tight_points" (ch "u" * ch "4");
    req "use_tight_rays" (ch "u" * ch "5");
    req "use_unit_vectors" (ch "u" * ch "6");
    req "verbosity" (ch "v") ].

(** ** getopt_long (GNU C library, POSIXLY_CORRECT not set; called at main.cpp:1369).
    One event per return value other than -1: the value returned and optarg (empty when there is none).
    An option that is unknown, ambiguous, lacks its argument or has one it does not take gives '?'. *)
Definition event := (Z * text)%type.
(** getopt_long (external) returns '?'. *)
Definition bad : event := (ch "?", []).

(** Does the short option [c] exist, and does it take an argument? *)
(** main.cpp:1308-1320: the string of short options. *)
Fixpoint find_short (c : ascii) (opts : text) : option bool :=
  match opts with
  | [] => None
  | x :: r => if Ascii.eqb c x then Some (match r with y :: _ => Ascii.eqb y ":" | [] => false end) else find_short c r
  end.
(** ':' and ';' are never options. *)
(** getopt_long (external). *)
Definition short_kind (c : ascii) : option bool :=
  if Ascii.eqb c ":" || Ascii.eqb c ";" then None else find_short c short_opts.

(** getopt_long (external) accepts unambiguous prefixes of long names. *)
Fixpoint is_prefix (a b : text) : bool :=
  match a, b with
  | [], _ => true
  | x :: a', y :: b' => Ascii.eqb x y && is_prefix a' b'
  | _ :: _, [] => false
  end.
(** An exact match wins; otherwise the only option the name is an initial part of (two such options are ambiguous, since no
    two entries have the same val). *)
(** getopt_long (external) with the table of main.cpp:1321-1366. *)
Definition find_long (n : text) : option longopt :=
  match find (fun o => text_eqb (lo_name o) n) long_opts with
  | Some o => Some o
  | None => match filter (fun o => is_prefix n (lo_name o)) long_opts with [o] => Some o | _ => None end
  end.

(** Name and value of a long option: split at the first '='. *)
(** getopt_long (external). *)
Fixpoint split_eq (s : text) : text * option text :=
  match s with
  | [] => ([], None)
  | c :: r => if Ascii.eqb c "=" then ([], Some r) else let '(n, v) := split_eq r in (c :: n, v)
  end.
(** A group of short options: the events it gives, and the option still waiting for its argument. *)
(** getopt_long (external). *)
Fixpoint short_group (s : text) : list event * option Z :=
  match s with
  | [] => ([], None)
  | c :: r =>
      match short_kind c with
      | None => let '(es, w) := short_group r in (bad :: es, w)
      | Some false => let '(es, w) := short_group r in ((ch c, []) :: es, w)
      | Some true => match r with [] => ([], Some (ch c)) | _ => ([(ch c, r)], None) end
      end
  end.
(** GNU getopt_long (external), called at main.cpp:1369. *)
Fixpoint getopt_long (args : list text) : list event :=
  match args with
  | [] => []
  | a :: rest =>
      match a with
      | "-" :: "-" :: [] => []                                    (* the rest are operands *)
      | "-" :: "-" :: body =>
          let '(n, v) := split_eq body in
          match find_long n, v with
          | None, _ => bad :: getopt_long rest
          | Some o, Some v => (if lo_arg o then (lo_val o, v) else bad) :: getopt_long rest
          | Some o, None =>
              if lo_arg o then match rest with
                               | v :: rest' => (lo_val o, v) :: getopt_long rest'
                               | [] => [bad]
                               end
              else (lo_val o, []) :: getopt_long rest
          end
      | "-" :: ((_ :: _) as body) =>
          let '(es, w) := short_group body in
          es ++ match w with
                | None => getopt_long rest
                | Some c => match rest with v :: rest' => (c, v) :: getopt_long rest' | [] => [bad] end
                end
      | _ => getopt_long rest                                     (* an operand: permuted to the end *)
      end
  end.

(** ** The switch, main.cpp:1370-2014. *)
Record build := { b_gurobi : bool; b_cplex : bool; b_cbc : bool }.

(** main.cpp:1370-2014: the kinds of cases of the switch. *)
Inductive action :=
| AInt (p : intParam) | ADouble (p : doubleParam) | AString (p : stringParam)
| AStrategy                                                       (* 'B' *)
| AFlag (zero one after : Z -> Z)                                 (* a 0/1 option of BB_STRATEGY *)
| APreprocess | ATemp | ATikz | AHelp.

Definition id_bb (s : Z) : Z := s.
(** One solver on, the two others off (1433-1452, 1453-1472, 1473-1492). *)
Definition only (a b c : bbOption) (s : Z) : Z := disable_bb_option (disable_bb_option (enable_bb_option s a) b) c.
(** disable_bb_option (VPCParameters.hpp:242-244) as used in main.cpp:1433-1953. *)
Definition without (a : bbOption) (s : Z) : Z := disable_bb_option s a.
(** enable_bb_option (VPCParameters.hpp:238-240) as used in main.cpp:1433-1953. *)
Definition with_ (a : bbOption) (s : Z) : Z := enable_bb_option s a.
(** [enable a] then [disable b] (e.g. 1537-1546). *)
Definition flip (a b : bbOption) (s : Z) : Z := disable_bb_option (enable_bb_option s a) b.

(** main.cpp:1370-1953: the cases. *)
Definition switch : list (Z * action) :=
  [ (ch "a" * ch "2", ADouble AWAY);                                                              (* 1371-1380 *)
    (ch "b", AInt BB_RUNS);                                                                       (* 1381-1390 *)
    (ch "b" * ch "1", AInt BB_MODE);                                                              (* 1391-1400 *)
    (ch "B", AStrategy);                                                                          (* 1401-1422 *)
    (ch "B" * ch "0", ADouble BB_TIMELIMIT);                                                      (* 1423-1432 *)
    (ch "B" * ch "1" * ch "1", AFlag (without cbc) (only cbc cplex gurobi) id_bb);                (* 1433-1452 *)
    (ch "B" * ch "1" * ch "2", AFlag (without cplex) (only cplex cbc gurobi) id_bb);              (* 1453-1472 *)
    (ch "B" * ch "1" * ch "3", AFlag (without gurobi) (only gurobi cbc cplex) id_bb);             (* 1473-1492 *)
    (ch "B" * ch "2", AFlag (without user_cuts) (with_ user_cuts) id_bb);                         (* 1493-1510 *)
    (ch "B" * ch "3", AFlag (without use_best_bound) (with_ use_best_bound) (with_ use_best_bound)); (* 1511-1529: line 1526 enables it again *)
    (ch "B" * ch "4", AFlag (flip all_cuts_off all_cuts_on) (flip all_cuts_on all_cuts_off) id_bb);  (* 1530-1549 *)
    (ch "B" * ch "5", AFlag (flip gmics_off gmics_on) (flip gmics_on gmics_off) id_bb);           (* 1550-1569 *)
    (ch "B" * ch "6", AFlag (flip presolve_off presolve_on) (flip presolve_on presolve_off) id_bb);  (* 1570-1589: bb_heuristics *)
    (ch "B" * ch "7", AFlag (flip heuristics_off heuristics_on) (flip heuristics_on heuristics_off) id_bb);  (* 1590-1609: bb_presolve *)
    (ch "B" * ch "8", AFlag (without strong_branching_on) (with_ strong_branching_on) id_bb);     (* 1610-1627 *)
    (ch "c", AInt CUTLIMIT); (ch "d", AInt DISJ_TERMS);                                           (* 1628-1647 *)
    (ch "D", AString DISJ_OPTIONS); (ch "f", AString FILENAME);                                   (* 1648-1655 *)
    (ch "g", AInt GOMORY); (ch "i", ADouble IP_OBJ); (ch "l", AString LOGFILE);                   (* 1656-1679 *)
    (ch "m", AInt MODE); (ch "m" * ch "1", ADouble MAX_SUPPORT_REL);                              (* 1680-1699 *)
    (ch "m" * ch "2", AInt MAX_NUM_HOT_START_VIOL); (ch "o", AString OPTFILE);                    (* 1700-1713 *)
    (ch "s" * ch "1", AString SOLFILE); (ch "s", AInt PARTIAL_BB_STRATEGY);                       (* 1714-1727 *)
    (ch "S", AInt PARTIAL_BB_NUM_STRONG); (ch "S" * ch "1", AInt PARTIAL_BB_KEEP_PRUNED_NODES);   (* 1728-1747 *)
    (ch "T", ADouble PARTIAL_BB_TIMELIMIT); (ch "p" * ch "1", APreprocess);                       (* 1748-1792 *)
    (ch "R", ADouble PRLP_TIMELIMIT); (ch "r", AInt ROUNDS); (ch "r" * ch "1", AInt RANDOM_SEED); (* 1793-1822 *)
    (ch "t" * ch "1", ATemp); (ch "t" * ch "2", ATikz); (ch "t", ADouble TIMELIMIT);              (* 1823-1883 *)
    (ch "u" * ch "1", AInt USE_ALL_ONES); (ch "u" * ch "2", AInt USE_DISJ_LB);                    (* 1884-1903 *)
    (ch "u" * ch "3", AInt USE_ITER_BILINEAR); (ch "u" * ch "4", AInt USE_TIGHT_POINTS);          (* 1904-1923 *)
    (ch "u" * ch "5", AInt USE_TIGHT_RAYS); (ch "u" * ch "6", AInt USE_UNIT_VECTORS);             (* 1924-1943 *)
    (ch "v", AInt VERBOSITY) ].                                                                   (* 1944-1953 *)
(** Lines 1954-2013: 'h', '?' and everything else print the help. *)
Definition action_of (c : Z) : action :=
  match find (fun e => (c =? fst e)%Z) switch with Some (_, a) => a | None => AHelp end.

#[local] Open Scope Z_scope.
(** Sequencing of steps that may end the program. *)
Definition bind {A B} (r : res A) (f : A -> res B) : res B :=
  match r with Done a => f a | Exit1 => Exit1 | Terminated => Terminated | Undef => Undef end.

(** Lines 1823-1841: the options that imply GEN_TIKZ_STRING.  std::abs of the smallest int is undefined. *)
Definition temp_implies (v : Z) : bool :=
  use_temp_option (Z.abs v) GEN_TIKZ_STRING_WITH_VPCS || use_temp_option (Z.abs v) GEN_TIKZ_STRING_WITH_GMICS
  || use_temp_option (Z.abs v) GEN_TIKZ_STRING_AND_RETURN || use_temp_option (Z.abs v) GEN_TIKZ_STRING_AND_EXIT.
(** Lines 1842-1873: the names --tikz knows. *)
Definition tikz_names : list (text * tempOption) :=
  [ (txt "GEN_TIKZ_STRING", GEN_TIKZ_STRING); (txt "GEN_TIKZ_STRING_WITH_VPCS", GEN_TIKZ_STRING_WITH_VPCS);
    (txt "GEN_TIKZ_STRING_WITH_GMICS", GEN_TIKZ_STRING_WITH_GMICS); (txt "GEN_TIKZ_STRING_AND_RETURN", GEN_TIKZ_STRING_AND_RETURN);
    (txt "GEN_TIKZ_STRING_AND_EXIT", GEN_TIKZ_STRING_AND_EXIT) ].

(** Lines 1767-1789: BB_STRATEGY set by --preprocess. *)
Definition preprocess_strategy (b : build) : Z :=
  get_bb_option_value [user_cuts; presolve_off] +
  (if b_gurobi b then get_bb_option_value [gurobi] else if b_cplex b then get_bb_option_value [cplex]
   else if b_cbc b then get_bb_option_value [cbc] else get_bb_option_value [off]).

(** One event.  The state: the parameters and [status]. *)
(** main.cpp:1369-2014: the body of the loop. *)
Definition process (b : build) (strtod : text -> strtod_result) (P : params) (status : Z) (e : event) : res (params * Z) :=
  let '(c, arg) := e in
  let ok (r : res params) := bind r (fun P' => Done (P', status)) in
  match action_of c with
  | AInt p => let '(rc, v) := parseInt arg in if rc then ok (set_int P p v) else Exit1
  | ADouble p => let '(rc, v) := parseDouble (strtod arg) in if rc then ok (set_double P p v) else Exit1
  | AString p => ok (set_string P p arg)
  | AStrategy =>
      let '(rc, v) := parseInt arg in
      if rc then bind (set_int P BB_STRATEGY v) (fun P' =>
        if use_bb_option v gurobi && negb (b_gurobi b) then Exit1
        else if use_bb_option v cplex && negb (b_cplex b) then Exit1
        else Done (P', status))
      else Exit1
  | AFlag zero one after =>
      let '(rc, v) := parseInt arg in
      if negb rc || (negb (v =? 0) && negb (v =? 1)) then Exit1
      else bind (get_int P BB_STRATEGY) (fun s => ok (set_int P BB_STRATEGY (after (if v =? 0 then zero s else one s))))
  | APreprocess =>
      let '(rc, v) := parseInt arg in
      if rc then
        bind (set_int P PREPROCESS v) (fun P => bind (set_int P BB_RUNS 1) (fun P => bind (set_int P BB_MODE 1) (fun P =>
        bind (set_int P BB_STRATEGY (preprocess_strategy b)) (fun P => ok (set_double P TIMELIMIT (DFin 7200))))))
      else Exit1
  | ATemp =>
      let '(rc, v) := parseInt arg in
      if rc then
        if v =? INT_MIN then Undef
        else ok (set_int P TEMP (if temp_implies v then enable_temp_option v GEN_TIKZ_STRING else v))
      else Exit1
  | ATikz =>
      bind (get_int P TEMP) (fun v =>
        match find (fun e => text_eqb arg (fst e)) tikz_names with
        | Some (_, o) => ok (set_int P TEMP (enable_temp_option (enable_temp_option v o) GEN_TIKZ_STRING))
        | None => Exit1
        end)
  | AHelp => Done (P, 1)
  end.

(** Lines 1367-1369, 2015-2020: the loop. *)
Fixpoint process_all (b : build) (strtod : text -> strtod_result) (P : params) (status : Z) (es : list event) : res (params * Z) :=
  match es with
  | [] => Done (P, status)
  | e :: r => bind (process b strtod P status e) (fun '(P', s') => process_all b strtod P' s' r)
  end.
(** [args]: argv[1], argv[2], ... *)
(** main.cpp:1308-2025. *)
Definition processArgs (b : build) (strtod : text -> strtod_result) (P : params) (args : list text) : res (params * Z) :=
  process_all b strtod P 0 (getopt_long args).

(** ** startUp, main.cpp:990-1036 (the start message, host name and CPU lookups of 903-989 and the opening of the log file are
    not modelled).  [boundInfo.ip_obj] starts as the largest double (analysis.hpp:36); [optlines]: contents of the optimal-value
    file, [None] when it cannot be opened. *)
Definition ends_with (suffix s : text) : bool :=
  Nat.ltb (length suffix) (length s) && text_eqb (skipn (length s - length suffix) s) suffix.
(** How startUp ends (main.cpp:990-1036). *)
Inductive started :=
| Stopped (status : Z)
| Started (P : params) (dir inst ext : text) (ip_obj : dbl).
(** main.cpp:990-1036. *)
Definition startUp (b : build) (strtod : text -> strtod_result) (stod : text -> option dbl) (optlines : option (list text))
    (P0 : params) (args : list text) : res started :=
  bind (processArgs b strtod P0 args) (fun '(P, status) =>
  if negb (status =? 0) then Done (Stopped status)
  else bind (get_string P FILENAME) (fun file =>
  match file with
  | [] => Exit1
  | _ =>
      match parseFilename file with
      | ParseErr _ => Exit1
      | Parsed dir inst ext =>
          bind (get_double P IP_OBJ) (fun v =>
          let ip := if d_isInfinity v dbl_max then dbl_max else v in
          bind (get_string P OPTFILE) (fun opt =>
          if d_isInfinity ip dbl_max && negb (match opt with [] => true | _ => false end) && ends_with (txt ".csv") opt then
            match getObjValueFromFile stod opt optlines file with
            | ObjValue w => bind (set_double P IP_OBJ w) (fun P' => Done (Started P' dir inst ext w))
            | ObjDefault => bind (set_double P IP_OBJ dbl_lowest) (fun P' => Done (Started P' dir inst ext dbl_lowest))
            | ObjTerminate => Terminated
            | ObjExit => Exit1
            end
          else Done (Started P dir inst ext ip)))
      end
  end)).
