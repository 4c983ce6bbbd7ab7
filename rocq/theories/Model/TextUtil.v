(** Text utilities: src/utility/utility.cpp:184-418 (file names, reading objective values and
    solutions from files, number parsing, case conversion).  Strings are lists of characters;
    C strings contain no NUL before their end, so [*temp != '\0'] is "something is left". *)
From Verif Require Export Prelude.
From Coq Require Export Ascii.
From Coq Require String.
Export String.StringSyntax.
#[global] Open Scope list_scope.

Definition text := list ascii.
(** A C string literal. *)
Definition txt (s : String.string) : text := String.list_ascii_of_string s.
Arguments txt _%string_scope.
(** std::string::compare(...) == 0, as at utility.cpp:210 and 235-335. *)
Fixpoint text_eqb (a b : text) : bool :=
  match a, b with
  | [], [] => true
  | x :: a', y :: b' => Ascii.eqb x y && text_eqb a' b'
  | _, _ => false
  end.

(** ** Characters (C locale; ctype.h). *)
(** The character as an unsigned char. *)
Definition code (c : ascii) : nat := nat_of_ascii c.
(** isspace of ctype.h in the C locale (external). *)
Definition is_space (c : ascii) : bool := Nat.eqb (code c) 32 || (Nat.leb 9 (code c) && Nat.leb (code c) 13).
(** isdigit of ctype.h in the C locale (external). *)
Definition is_digit (c : ascii) : bool := Nat.leb 48 (code c) && Nat.leb (code c) 57.
(** The value of a decimal digit, for strtol (external). *)
Definition digit_val (c : ascii) : Z := Z.of_nat (code c) - 48.
(** tolower of ctype.h in the C locale (external), used at utility.cpp:389-403. *)
Definition tolower (c : ascii) : ascii :=
  if Nat.leb 65 (code c) && Nat.leb (code c) 90 then ascii_of_nat (code c + 32) else c.
(** toupper of ctype.h in the C locale (external), used at utility.cpp:405-418. *)
Definition toupper (c : ascii) : ascii :=
  if Nat.leb 97 (code c) && Nat.leb (code c) 122 then ascii_of_nat (code c - 32) else c.

(** ** Case conversion, utility.cpp:389-418. *)
Definition lowerCaseString (s : text) : text := map tolower s.
(** utility.cpp:395-403. *)
Definition lowerCaseStringVector (v : list text) : list text := map lowerCaseString v.
(** utility.cpp:405-409. *)
Definition upperCaseString (s : text) : text := map toupper s.
(** utility.cpp:411-418: the character that is removed. *)
Definition remove_underscore (c : ascii) : bool := Ascii.eqb c "_"%char.
(** data.erase(remove_if(...)). *)
(** utility.cpp:415-419. *)
Definition upperCaseStringNoUnderscore (s : text) : text :=
  filter (fun c => negb (remove_underscore c)) (upperCaseString s).

(** ** strtol (C standard, base 10; 64-bit long). *)
Definition LONG_MIN : Z := - 2 ^ 63.
(** The largest long (64 bits), for strtol (external). *)
Definition LONG_MAX : Z := 2 ^ 63 - 1.
(** strtol skips white space first (external). *)
Fixpoint skip_space (s : text) : text :=
  match s with c :: r => if is_space c then skip_space r else s | [] => [] end.
(** Leading digits, accumulated left to right. *)
(** strtol (external). *)
Fixpoint read_digits (acc : Z) (s : text) : Z * text :=
  match s with
  | c :: r => if is_digit c then read_digits (acc * 10 + digit_val c) r else (acc, s)
  | [] => (acc, [])
  end.
Record strtol_result := { sl_val : Z; sl_rest : option text (* None: no conversion, endptr = str *); sl_erange : bool }.
Definition strtol (s : text) : strtol_result :=
  let s1 := skip_space s in
  let '(neg, s2) := match s1 with
                    | c :: r => if Ascii.eqb c "-"%char then (true, r) else if Ascii.eqb c "+"%char then (false, r) else (false, s1)
                    | [] => (false, []) end in
  match s2 with
  | c :: _ =>
      if is_digit c then
        let '(v, rest) := read_digits 0 s2 in
        let z := if (neg : bool) then (- v)%Z else v in
        if (z <? LONG_MIN)%Z then {| sl_val := LONG_MIN; sl_rest := Some rest; sl_erange := true |}
        else if (LONG_MAX <? z)%Z then {| sl_val := LONG_MAX; sl_rest := Some rest; sl_erange := true |}
        else {| sl_val := z; sl_rest := Some rest; sl_erange := false |}
      else {| sl_val := 0; sl_rest := None; sl_erange := false |}
  | [] => {| sl_val := 0; sl_rest := None; sl_erange := false |}
  end.

(** utility.cpp:359-370 [parseLong]: (return value, val). *)
Definition parseLong (s : text) : bool * Z :=
  let r := strtol s in
  (match sl_rest r with
   | None => false
   | Some rest =>
       match rest with
       | _ :: _ => false
       | [] => negb (((sl_val r =? LONG_MIN)%Z || (sl_val r =? LONG_MAX)%Z) && sl_erange r)
       end
   end, sl_val r).

(** utility.cpp:349-354 [parseInt]: static_cast<int> of the long (two's complement, 32 bits). *)
Definition to_int (z : Z) : Z := ((z + 2 ^ 31) mod 2 ^ 32 - 2 ^ 31)%Z.
(** utility.cpp:349-354. *)
Definition parseInt (s : text) : bool * Z := let '(rc, v) := parseLong s in (rc, to_int v).

(** ** parseDouble, utility.cpp:375-387.  strtod is external: its answer is an argument (the value
    as a double, the text left or [None] for no conversion, whether errno is ERANGE). *)
Inductive dbl := DFin (q : Q) | DInf (neg : bool) | DNaN.
(** The answer of strtod (external), called at utility.cpp:378. *)
Record strtod_result := { sd_val : dbl; sd_rest : option text; sd_erange : bool }.
Definition DBL_MINpos : Q := 1 # (2 ^ 1022).            (* numeric_limits<double>::min() *)
Definition DBL_MAXv : Q := inject_Z ((2 ^ 53 - 1) * 2 ^ 971).
(** The comparison == of a double with a finite constant, utility.cpp:381. *)
Definition dbl_is (d : dbl) (q : Q) : bool := match d with DFin x => Qeq_bool x q | _ => false end.
(** utility.cpp:375-387. *)
Definition parseDouble (r : strtod_result) : bool * dbl :=
  (match sd_rest r with
   | None => false
   | Some (_ :: _) => false
   | Some [] => negb ((dbl_is (sd_val r) DBL_MINpos || dbl_is (sd_val r) (- DBL_MAXv) || dbl_is (sd_val r) DBL_MAXv)
                      && sd_erange r)
   end, sd_val r).

(** ** parseFilename, utility.cpp:185-232. *)

(** std::string::find_last_of for a set of characters: position of the last such character. *)
(** std::string (external), used at utility.cpp:197-229. *)
Fixpoint find_last_of (p : ascii -> bool) (s : text) : option nat :=
  match s with
  | [] => None
  | c :: r => match find_last_of p r with
              | Some k => Some (S k)
              | None => if p c then Some O else None
              end
  end.
(** utility.cpp:197 and 211: the character searched for. *)
Definition is_dot (c : ascii) : bool := Ascii.eqb c "."%char.
(** utility.cpp:185-232: the characters searched for. *)
Definition is_slash (c : ascii) : bool := Ascii.eqb c "/"%char || Ascii.eqb c (ascii_of_nat 92).

(** utility.cpp:210: [unsigned found_dot_tmp = find_last_of(...)] keeps the low 32 bits of the
    position (npos becomes 2^32 - 1). *)
Definition to_unsigned (o : option nat) : Z :=
  match o with Some k => Z.of_nat k mod 2 ^ 32 | None => 2 ^ 32 - 1 end.

(** The outcome of parseFilename, utility.cpp:185-232: error (exit(1)) with the extension found, or the three parts. *)
Inductive parsed := ParseErr (ext : option text) | Parsed (dir inst ext : text).
(** [ParseErr e]: return 1 ([e] is what in_file_ext was set to, [None] when left alone);
    [Parsed d i e]: return 0. *)
(** utility.cpp:185-232. *)
Definition parseFilename (full : text) : parsed :=
  match find_last_of is_dot full with
  | None => ParseErr None
  | Some d =>
      let filename := firstn d full in
      let ext := skipn (S d) full in
      let split_dir (filename ext : text) :=
        match find_last_of is_slash filename with
        | Some k => Parsed (firstn k filename) (skipn (S k) filename) ext
        | None => Parsed (txt ".") filename ext
        end in
      if text_eqb ext (txt "gz") || text_eqb ext (txt "bz2") then
        let t := to_unsigned (find_last_of is_dot filename) in
        if (t <? Z.of_nat (length filename))%Z then
          split_dir (firstn (Z.to_nat t) filename) (skipn (S (Z.to_nat t)) filename)
        else ParseErr (Some ext)
      else split_dir filename ext
  end.

(** ** getObjValueFromFile, utility.cpp:235-282. *)

(** std::getline(iss, tok, delim) on the characters left in the stream: [None] = fails (nothing left);
    otherwise the token and what is left. *)
(** std::getline (external), used at utility.cpp:235-335. *)
Fixpoint getline_tok (delim : ascii) (s : text) : text * text :=
  match s with
  | [] => ([], [])
  | c :: r => if Ascii.eqb c delim then ([], r)
              else let '(t, rest) := getline_tok delim r in (c :: t, rest)
  end.
(** std::getline (external), used at utility.cpp:235-335. *)
Definition getline (delim : ascii) (s : text) : option (text * text) :=
  match s with [] => None | _ => Some (getline_tok delim s) end.

(** The outcomes of getObjValueFromFile, utility.cpp:235-282. *)
Inductive objres (V : Type) :=
| ObjValue (v : V)      (* return std::stod(token) *)
| ObjDefault            (* return numeric_limits<double>::lowest() *)
| ObjTerminate          (* [throw;] with no exception being handled: std::terminate *)
| ObjExit.              (* exit(1): file could not be opened *)
Arguments ObjValue {V}. Arguments ObjDefault {V}. Arguments ObjTerminate {V}. Arguments ObjExit {V}.

(** Loop over the lines; [stod] is std::stod ([None] = throws invalid_argument / out_of_range). *)
(** utility.cpp:245-275. *)
Fixpoint obj_lines {V} (stod : text -> option V) (inst : text) (ls : list text) : objres V :=
  match ls with
  | [] => ObjDefault
  | l :: r =>
      match getline ","%char l with
      | None => obj_lines stod inst r                       (* empty line: continue *)
      | Some (name, rest) =>
          if text_eqb name inst then
            match getline ","%char rest with
            | None => ObjTerminate
            | Some (tok, _) => match stod tok with
                               | Some v => ObjValue v
                               | None => obj_lines stod inst r
                               end
            end
          else obj_lines stod inst r
      end
  end.
(** [file]: [None] when it cannot be opened, otherwise its lines. *)
(** utility.cpp:235-282. *)
Definition getObjValueFromFile {V} (stod : text -> option V) (opt_filename : text)
    (file : option (list text)) (full : text) : objres V :=
  let inst := match parseFilename full with Parsed _ i _ => i | ParseErr _ => [] end in
  match opt_filename with
  | [] => ObjDefault
  | _ => match file with None => ObjExit | Some ls => obj_lines stod inst ls end
  end.

(** ** getSolFromFile, utility.cpp:284-335: values appended by one line. *)
Definition sol_line {V} (zero : V) (stod : text -> option V) (l : text) : list V :=
  match l with
  | [] => []
  | c :: _ =>
      if Ascii.eqb c "#"%char || Ascii.eqb c "*"%char then []
      else match getline " "%char l with
           | None => []
           | Some (_, rest) =>
               match getline " "%char rest with
               | None => []
               | Some (tok, _) =>
                   (match tok with [] => [zero] | _ => if text_eqb tok (txt " ") then [zero] else [] end)
                   ++ match stod tok with Some v => [v] | None => [] end
               end
           end
  end.
(** utility.cpp:284-335: all lines of the file. *)
Definition getSolFromFile {V} (zero : V) (stod : text -> option V) (ls : list text) : list V :=
  flat_map (sol_line zero stod) ls.
